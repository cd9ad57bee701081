(** Exact values of numbers of any class. *)
From Coq Require Import ZArith Floats.SpecFloat.
From Verif Require Import Base NumModel DblSpec.
Open Scope Z_scope.

(** The exact value of a number: integers count units of 2^-1074, as doubles do. *)
Definition number_value (v : value) : exact :=
  match v with
  | VInt x | VBig x => Exactly (x * unit_scale)
  | VDbl f => exactly f
  | _ => NotANumber
  end.
(** The numbers every class of which can hold the same value: doubles, and integers up to 2^53. *)
Definition common (v : value) : Prop :=
  match v with
  | VInt x | VBig x => - 2 ^ 53 <= x <= 2 ^ 53
  | VDbl f => binary64 f
  | _ => False
  end.
