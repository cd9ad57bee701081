(** Shared vocabulary of the model: results with exceptions as values, and the
    run-time values of SOM.  Nothing here is a property. *)
From Coq Require Import ZArith Bool String List Floats.SpecFloat.
Import ListNotations.
Open Scope Z_scope.

(** Ways in which a Python / RPython computation can fail.  Each constructor is a
    Python exception that propagates out of the modelled function, except
    [UndefinedBehaviour] (an RPython operation without a run-time check, e.g. a
    hardware trap on integer division), [NotInstalled] (the repository installs no
    primitive for that selector and receiver class) and [OutOfFuel] (the model's own
    recursion bound, never produced by a program). *)
Inductive exn :=
| AssertionError | AttributeError | IndexError | ValueError | TypeError
| ZeroDivisionError | OverflowError | NotImplementedErr | KeyError
| PyException | UndefinedBehaviour | NotInstalled | OutOfFuel.

Inductive res (A : Type) := Ok (a : A) | Err (e : exn).
Arguments Ok {A} a.
Arguments Err {A} e.

Definition bind {A B} (x : res A) (f : A -> res B) : res B :=
  match x with Ok a => f a | Err e => Err e end.

Notation "x <- a ;; b" := (bind a (fun x => b))
  (at level 61, a at next level, right associativity).

Definition is_ok {A} (x : res A) : bool := match x with Ok _ => true | Err _ => false end.

(** Execution modes.  [Translated]: the RPython-compiled VM (rlib/arithmetic.py 1-11,
    rlib/llop.py 1-18: 64-bit words, rbigint).  [Hosted]: the same sources run by a
    plain Python (the ImportError branches of the two files). *)
Inductive mode := Translated | Hosted.

(** SOM values (src/som/vmobjects/*.py).  [VInt] is class Integer (a machine word in
    Translated mode), [VBig] class BigInteger (rbigint), [VDbl] class Double
    (binary64), [VStr]/[VSym] String and Symbol.  [VObj n] stands for every other
    object (instance, array, block, class, method, invokable): the number is its
    identity.  Simplification: integers, doubles and strings are modelled by value,
    without object identity. *)
Inductive value :=
| VNil | VTrue | VFalse
| VInt (z : Z) | VBig (z : Z)
| VDbl (f : spec_float)
| VStr (s : string) | VSym (s : string)
| VObj (n : nat).

(** trueObject / falseObject (som/vm/globals.py) from a Python bool. *)
Definition som_bool (b : bool) : value := if b then VTrue else VFalse.

(** Machine words: LONG_BIT = 64 in rpython.rlib.rarithmetic. *)
Definition word_min : Z := - 2 ^ 63.
Definition word_max : Z := 2 ^ 63 - 1.
Definition fits_word (z : Z) : bool := (word_min <=? z) && (z <=? word_max).

(** Two's complement wrap-around of an unchecked RPython int operation (RPython
    compiles with -fwrapv). *)
Definition wrap_word (z : Z) : Z := (z + 2 ^ 63) mod 2 ^ 64 - 2 ^ 63.

(** An unchecked int operation: wraps when translated, unbounded under Python. *)
Definition unchecked (m : mode) (z : Z) : Z :=
  match m with Translated => wrap_word z | Hosted => z end.

(** rlib/arithmetic.py 1-2 (rarithmetic.ovfcheck) and 14-15 (fallback: identity).
    [None] is the OverflowError caught by all callers. *)
Definition ovfcheck (m : mode) (z : Z) : option Z :=
  match m with
  | Translated => if fits_word z then Some z else None
  | Hosted => Some z
  end.
