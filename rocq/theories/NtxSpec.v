(** Decimal numerals. *)
From Coq Require Import ZArith Ascii List.
Import ListNotations.
Open Scope Z_scope.

(** [numeral s n]: the characters [s], one or more decimal digits, spell the number [n];
    the value of a longer numeral is ten times that of its beginning plus the last digit. *)
Definition digits10 : list (ascii * Z) :=
  [("0", 0); ("1", 1); ("2", 2); ("3", 3); ("4", 4); ("5", 5); ("6", 6); ("7", 7); ("8", 8); ("9", 9)]%char.
Inductive numeral : list ascii -> Z -> Prop :=
| one_digit c d : In (c, d) digits10 -> numeral [c] d
| more_digits s n c d : numeral s n -> In (c, d) digits10 -> numeral (s ++ [c]) (10 * n + d).
(** The usual way to write an integer: no leading zeros, a minus sign for negative numbers. *)
Definition written (s : list ascii) (z : Z) : Prop :=
  exists t, numeral t (Z.abs z) /\ (forall u, t = "0"%char :: u -> u = []) /\
    s = if z <? 0 then "-"%char :: t else t.
