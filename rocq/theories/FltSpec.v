(** Correct rounding (IEEE 754, to nearest, ties to even), in terms of the exact values of
    DblSpec.  An exact result is a fraction [p / q] of units of 2^-1074. *)
From Coq Require Import ZArith Floats.SpecFloat.
From Verif Require Import Base DblSpec.
Open Scope Z_scope.

(** Halfway between the largest double and the next power of two, in units. *)
Definition overflow_limit : Z := (2 ^ 54 - 1) * 2 ^ 2044.
(** The last binary digit of the significand is 0. *)
Definition even_last (f : spec_float) : Prop :=
  match f with S754_finite _ m _ => Z.even (Zpos m) = true | _ => True end.
Definition negative (f : spec_float) : bool :=
  match f with S754_zero s | S754_infinity s | S754_finite s _ _ => s | S754_nan => false end.
(** [f] is the double nearest to [p / q] units; of two that are equally near it is the one whose
    significand is even; from the limit on it is infinite.  A result that is not zero keeps its
    sign even if it is rounded to zero. *)
Definition rounds_to (p q : Z) (f : spec_float) : Prop :=
  binary64 f /\ (p <> 0 -> negative f = (p <? 0)) /\
  if overflow_limit * q <=? Z.abs p then f = S754_infinity (p <? 0)
  else exists v, units f = Some v /\
    forall g w, binary64 g -> units g = Some w ->
      Z.abs (v * q - p) <= Z.abs (w * q - p) /\
      (w <> v -> Z.abs (v * q - p) = Z.abs (w * q - p) -> even_last f).

(** [f] is the double nearest to the square root of [p / unit_scale], the value whose square is [p]
    units: of two doubles the one is nearer on whose side of their middle the root lies.  Of two
    that are equally near it is the one whose significand is even. *)
Definition rounds_to_root (p : Z) (f : spec_float) : Prop :=
  binary64 f /\ exists v, units f = Some v /\ 0 <= v /\
    forall g w, binary64 g -> units g = Some w -> 0 <= w ->
      (w < v -> (w + v) * (w + v) <= 4 * p * unit_scale) /\
      (v < w -> 4 * p * unit_scale <= (w + v) * (w + v)) /\
      (w <> v -> (w + v) * (w + v) = 4 * p * unit_scale -> even_last f).
