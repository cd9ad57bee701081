(** Decimal fractions. *)
From Coq Require Import ZArith Ascii List.
From Verif Require Import Base LexModel NtxSpec.
Import ListNotations.
Open Scope Z_scope.
Open Scope list_scope.

(** The text [s], digits on both sides of a point, writes the number [n / 10^k]: [n] is what the digits
    spell without the point, [k] how many of them follow it. *)
Definition decimal (s : text) (n : Z) (k : nat) : Prop :=
  exists d e, s = d ++ "."%char :: e /\ d <> [] /\ e <> [] /\ numeral (d ++ e) n /\ k = List.length e.
