(** Square roots of doubles, infinity. *)
From Coq Require Import ZArith Floats.SpecFloat.
From Verif Require Import Base NumModel.
Open Scope Z_scope.

(** math.sqrt as double_primitives.py 14-15 calls it: ValueError below zero, so also for minus
    infinity; minus zero and NaN are answered as they are. *)
Definition py_sqrt (f : spec_float) : res spec_float :=
  match f with
  | S754_finite true _ _ | S754_infinity true => Err ValueError
  | _ => Ok (fsqrt f)
  end.
(** double_primitives.py 14-15.  get_embedded_double is a method of Double only (double.py 15-16);
    the primitive is installed for doubles (line 118). *)
Definition d_sqrt (rcvr : value) : res value :=
  match rcvr with
  | VDbl f => x <- py_sqrt f ;; Ok (VDbl x)
  | _ => Err AttributeError
  end.
(** double_primitives.py 99-100, installed as a class method (lines 138-140). *)
Definition d_positive_infinity : value := VDbl (S754_infinity false).
