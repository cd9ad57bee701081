(** What a program can compute with numbers. *)
From Coq Require Import ZArith Bool String List Floats.SpecFloat.
From Verif Require Import Base NumModel DblSpec FltModel LexModel DecModel.
Import ListNotations.

(** A value a program may hold: if it is a double, it is one of the binary64 format. *)
Definition well_formed (v : value) : Prop := forall f, v = VDbl f -> binary64 f.

(** The values a program gets hold of: any object that is not a double; double literals (parser.py
    314-327); what Double fromString: (double_primitives.py 103-109) and Double PositiveInfinity
    (99-100) answer; and what sends to such values, and the increments and decrements the compiler
    puts in their place, answer. *)
Inductive computed (m : mode) : value -> Prop :=
| computed_other v : (forall f, v <> VDbl f) -> computed m v
| computed_literal neg s v : literal_double neg s = Ok v -> computed m v
| computed_from_string s v : double_from_string s = Ok v -> computed m v
| computed_infinity : computed m d_positive_infinity
| computed_binary a sel b v : computed m a -> computed m b -> send1 m a sel b = Ok v -> computed m v
| computed_unary a sel v : computed m a -> send0 m a sel = Ok v -> computed m v
| computed_sqrt a v : computed m a -> d_sqrt a = Ok v -> computed m v
| computed_inc a v : computed m a -> bc_inc m a = Ok v -> computed m v
| computed_dec a v : computed m a -> bc_dec m a = Ok v -> computed m v.
