(** Exact values of doubles. *)
From Coq Require Import ZArith Floats.SpecFloat.
From Verif Require Import Base.
Open Scope Z_scope.

(** The finite numbers of IEEE binary64: 53-bit mantissas, exponents from -1074 to 971, and
    no second representation of a number. *)
Definition binary64 (f : spec_float) : Prop :=
  match f with
  | S754_finite _ m e =>
      Zpos m < 2 ^ 53 /\ -1074 <= e <= 971 /\ (2 ^ 52 <= Zpos m \/ e = -1074)
  | _ => True
  end.

(** Every finite double is a multiple of 2^-1074: [units f] is how many. *)
Definition unit_scale : Z := 2 ^ 1074.
Definition units (f : spec_float) : option Z :=
  match f with
  | S754_zero _ => Some 0
  | S754_finite s m e => Some ((if s then -1 else 1) * Zpos m * 2 ^ (e + 1074))
  | _ => None
  end.

(** The exact value of a double on the extended line. *)
Inductive exact := NegInf | Exactly (u : Z) | PosInf | NotANumber.
Definition exactly (f : spec_float) : exact :=
  match f with
  | S754_infinity true => NegInf
  | S754_infinity false => PosInf
  | S754_nan => NotANumber
  | _ => match units f with Some u => Exactly u | None => NotANumber end
  end.
Definition below (a b : exact) : Prop :=
  match a, b with
  | NegInf, (Exactly _ | PosInf) => True
  | Exactly _, PosInf => True
  | Exactly u, Exactly v => u < v
  | _, _ => False
  end.
Definition same (a b : exact) : Prop := a = b /\ a <> NotANumber.

(** [z] is the value of [u] units with its fraction cut off. *)
Definition cut_off (u z : Z) : Prop :=
  (0 <= u -> z * unit_scale <= u < (z + 1) * unit_scale) /\
  (u <= 0 -> (z - 1) * unit_scale < u <= z * unit_scale).
(** [z] is the integer nearest to [u] units, halves away from zero. *)
Definition nearest_away (u z : Z) : Prop :=
  2 * Z.abs (u - z * unit_scale) <= unit_scale /\
  (2 * Z.abs (u - z * unit_scale) = unit_scale -> Z.abs u < Z.abs z * unit_scale).
(** [f] is one of the two doubles around the root of [z] (the root itself, if that is a
    double): no double lies between [f] and the root. *)
Definition next_to_root (f : spec_float) (z : Z) : Prop :=
  binary64 f /\ exists u, units f = Some u /\
    forall g p, binary64 g -> units g = Some p -> 0 <= p ->
      (p * p <= z * unit_scale * unit_scale -> p <= u) /\
      (z * unit_scale * unit_scale <= p * p -> u <= p).
