(** The helpers that write the messages: strenum, strinfo, strelapsed, strnbytes and strplural (utils/misc.py 907-1046).  Texts are strings of ASCII characters; the choices, names and messages
    are texts already. *)
From Coq Require Import List Arith ZArith QArith String Ascii DecimalString.
From Verif Require Import Base.
Import ListNotations.
Local Open Scope string_scope.

(** str(n) of an integer *)
Definition str (n : Z) : string := NilZero.string_of_int (Z.to_int n).
(** f"'{choice}'", 949 *)
Definition quote (c : string) : string := "'" ++ c ++ "'".
(** strenum, 932-954 *)
Definition strenum (choices : list string) (last : string) : result string :=
  match List.map quote choices with
  | [] => Raise ValueError
  | [c] => Ok c
  | l => Ok (String.concat ", " (List.removelast l) ++ " " ++ last ++ " " ++ List.last l "")
  end.
(** strplural, 1009-1046; the name is not inspected *)
Definition strplural (n : Z) (name : string) (nonumber : bool) (s : string) : string :=
  if (n =? 0)%Z then (if nonumber then "" else "no ") ++ name
  else if (n =? 1)%Z then (if nonumber then "" else "1 ") ++ name ++ s
  else (if nonumber then "" else str n ++ " ") ++ name ++ "s" ++ s.
(** strnbytes, 983-1006; [fstr] is str of a float, the divisions by powers of two are exact (they are for less than 2**53 bytes) *)
Definition strnbytes (fstr : Q -> string) (nbytes : Z) : string :=
  if (nbytes <? 1024)%Z then str nbytes ++ " bytes"
  else if (nbytes <? 1048576)%Z then fstr (nbytes # 1024) ++ " KiB"
  else if (nbytes <? 1073741824)%Z then fstr (nbytes # 1048576) ++ " MiB"
  else fstr (nbytes # 1073741824) ++ " GiB".
(** '{:0n}'.format(rank), 977, for a rank of n digits at most: the last n digits of the rank *)
Fixpoint digits (n rank : nat) : string :=
  match n with O => "" | S n => digits n (rank / 10) ++ String (ascii_of_nat (48 + rank mod 10)) "" end.
Definition padded (n rank : nat) : string := if (rank <? 10 ^ n)%nat then digits n rank else str (Z.of_nat rank).
(** strinfo, 957-980; [log10] is the integer part of the logarithm, [processor] the name of the processor *)
Definition strinfo (log10 : nat -> nat) (processor : string) (rank size : nat) (msg : string) : string :=
  "Info " ++ processor ++ (if (1 <? size)%nat then "/" ++ padded (log10 (size - 1)%nat + 1)%nat rank else "") ++ ": " ++ msg ++ ".".
(** text[:-1] *)
Fixpoint chop (t : string) : string := match t with "" => "" | String c "" => "" | String c t => String c (chop t) end.
(** strelapsed, 907-929; [seconds] is the elapsed time written with two decimals *)
Definition strelapsed (log10 : nat -> nat) (processor : string) (rank size : nat) (seconds msg : string) : string :=
  chop (strinfo log10 processor rank size (msg ++ "... " ++ seconds ++ "s")).
