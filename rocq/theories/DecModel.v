(** Doubles as text: the decimal literals of the parser and Double fromString:.
    src/som/compiler/parser.py, src/som/primitives/double_primitives.py. *)
From Coq Require Import ZArith Bool String Ascii List Floats.SpecFloat.
From Verif Require Import Base LexModel NumModel NtxModel.
Import ListNotations.
Open Scope Z_scope.
Open Scope list_scope.

(** The digits of a text as one number. *)
Fixpoint all_digits (acc : Z) (s : text) : option Z :=
  match s with
  | [] => Some acc
  | c :: r => match char_digit c with Some d => all_digits (10 * acc + d) r | None => None end
  end.
(** The double for [n / 10^k], rounded correctly (as Python's and RPython's float() do), infinite if it
    is too large. *)
Definition decimal_double (n : Z) (k : nat) : spec_float :=
  match big_truediv n (10 ^ Z.of_nat k) with Ok f => f | Err _ => S754_infinity false end.
(** float(s) for digits with or without a point among them.  Simplification: exponents, spaces,
    underscores, inf and nan are not modelled; such texts are refused here. *)
Definition unsigned_float (s : text) : res spec_float :=
  let whole := scan (fun c => negb (Ascii.eqb c ".")) s in
  let rest := skipn (List.length whole) s in
  let frac := skipn 1 rest in
  match whole ++ frac with
  | [] => Err ValueError
  | t => match all_digits 0 t with
         | Some n => Ok (decimal_double n (List.length frac))
         | None => Err ValueError
         end
  end.
Definition py_float (s : text) : res spec_float :=
  match s with
  | "-"%char :: t => f <- unsigned_float t ;; Ok (SFopp f)
  | "+"%char :: t => unsigned_float t
  | _ => unsigned_float s
  end.
(** _literal_double (compiler/parser.py 314-327): the text of the token and whether a minus sign stands
    before it.  The ValueError becomes a ParseError. *)
Definition literal_double (neg : bool) (s : text) : res value :=
  match py_float s with
  | Ok f => Ok (VDbl (if neg then fsub (S754_zero false) f else f))
  | Err ValueError => Err PyException
  | Err e => Err e
  end.
(** _from_string (double_primitives.py 103-109) of a String or Symbol with the text [s]. *)
Definition double_from_string (s : text) : res value :=
  match py_float s with
  | Ok f => Ok (VDbl f)
  | Err ValueError => Ok VNil
  | Err e => Err e
  end.
