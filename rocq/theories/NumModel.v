(** Model of the number classes and their primitives.
    src/som/vmobjects/{integer,biginteger,double}.py,
    src/som/primitives/{integer,double}_primitives.py,
    src/rlib/{arithmetic,llop,float}.py. *)
From Coq Require Import ZArith Bool String List Floats.SpecFloat.
From Verif Require Import Base.
Import ListNotations.
Open Scope Z_scope.

(** * Doubles: IEEE binary64 *)
Definition fprec : Z := 53.
Definition femax : Z := 1024.
Definition fadd := SFadd fprec femax.
Definition fsub := SFsub fprec femax.
Definition fmul := SFmul fprec femax.
Definition fdiv := SFdiv fprec femax.
Definition fsqrt := SFsqrt fprec femax.
Definition feq := SFeqb.
Definition flt := SFltb.
Definition fle := SFleb.

(** Conversion of an integer to the nearest double (ties to even). *)
Definition float_of_Z (z : Z) : spec_float := binary_normalize fprec femax z 0 false.

(** rbigint.tofloat: OverflowError when the value is too large for a double. *)
Definition big_tofloat (z : Z) : res spec_float :=
  match float_of_Z z with
  | S754_infinity _ => Err OverflowError
  | f => Ok f
  end.

(** float(int): a C cast when translated, rounding and range-checked under Python. *)
Definition int_tofloat (m : mode) (z : Z) : res spec_float :=
  match m with Translated => Ok (float_of_Z z) | Hosted => big_tofloat z end.

(** Python float division: no zero check in RPython, ZeroDivisionError in Python. *)
Definition py_fdiv (m : mode) (a b : spec_float) : res spec_float :=
  match m, b with
  | Hosted, S754_zero _ => Err ZeroDivisionError
  | _, _ => Ok (fdiv a b)
  end.

(** math.fmod, exact remainder of truncated division; ValueError for an infinite
    dividend or a zero divisor. *)
Definition py_fmod (a b : spec_float) : res spec_float :=
  match a, b with
  | S754_nan, _ | _, S754_nan => Ok S754_nan
  | S754_infinity _, _ => Err ValueError
  | _, S754_zero _ => Err ValueError
  | S754_zero s, _ => Ok (S754_zero s)
  | S754_finite _ _ _, S754_infinity _ => Ok a
  | S754_finite s1 m1 e1, S754_finite _ m2 e2 =>
      let e := Z.min e1 e2 in
      let x := Zpos m1 * 2 ^ (e1 - e) in
      let y := Zpos m2 * 2 ^ (e2 - e) in
      Ok (binary_normalize fprec femax (cond_Zopp s1 (Z.rem x y)) e s1)
  end.

(** Truncation of a finite double towards zero. *)
Definition trunc_Z (f : spec_float) : option Z :=
  match f with
  | S754_zero _ => Some 0
  | S754_finite s m e =>
      Some (cond_Zopp s (if 0 <=? e then Zpos m * 2 ^ e else Zpos m / 2 ^ (- e)))
  | _ => None
  end.

(** int(float): an unchecked C cast when translated (undefined outside the word
    range); unbounded under Python, with OverflowError/ValueError for inf/nan. *)
Definition py_int_of_float (m : mode) (f : spec_float) : res Z :=
  match trunc_Z f with
  | Some z =>
      match m with
      | Translated => if fits_word z then Ok z else Err UndefinedBehaviour
      | Hosted => Ok z
      end
  | None =>
      match m, f with
      | Translated, _ => Err UndefinedBehaviour
      | Hosted, S754_nan => Err ValueError
      | Hosted, _ => Err OverflowError
      end
  end.

(** Python's int == float: exact in Python; RPython converts the int to a double. *)
Definition exact_eq (z : Z) (f : spec_float) : bool :=
  match f with
  | S754_zero _ => z =? 0
  | S754_finite s m e =>
      if 0 <=? e then z =? cond_Zopp s (Zpos m * 2 ^ e)
      else z * 2 ^ (- e) =? cond_Zopp s (Zpos m)
  | _ => false
  end.
Definition int_eq_float (m : mode) (z : Z) (f : spec_float) : bool :=
  match m with Translated => feq (float_of_Z z) f | Hosted => exact_eq z f end.

(** rbigint.truediv: correctly rounded quotient of two big integers;
    ZeroDivisionError and OverflowError as in Python. *)
Definition big_truediv (x y : Z) : res spec_float :=
  match y with
  | Z0 => Err ZeroDivisionError
  | _ =>
      match x with
      | Z0 => Ok (S754_zero (y <? 0))
      | _ =>
          let s := xorb (x <? 0) (y <? 0) in
          let '(q, e, l) :=
            SFdiv_core_binary fprec femax (Z.abs x) 0 (Z.abs y) 0 in
          match binary_round_aux fprec femax s q e l with
          | S754_infinity _ => Err OverflowError
          | f => Ok f
          end
      end
  end.

(** * class Double (vmobjects/double.py) *)

(** double.py 27-38 _get_float: ValueError for anything that is not a number. *)
Definition get_float (m : mode) (v : value) : res spec_float :=
  match v with
  | VDbl f => Ok f
  | VInt z => int_tofloat m z
  | VBig z => big_tofloat z
  | _ => Err ValueError
  end.

(** double.py 50-52 *)
Definition dbl_add m (a : spec_float) (right : value) : res value :=
  r <- get_float m right ;; Ok (VDbl (fadd a r)).
(** double.py 63-65 *)
Definition dbl_subtract m a right : res value :=
  r <- get_float m right ;; Ok (VDbl (fsub a r)).
(** double.py 40-42 *)
Definition dbl_multiply m a right : res value :=
  r <- get_float m right ;; Ok (VDbl (fmul a r)).
(** double.py 44-45 *)
Definition dbl_inc (a : spec_float) : res value := Ok (VDbl (fadd a (float_of_Z 1))).
(** double.py 47-48 *)
Definition dbl_dec (a : spec_float) : res value := Ok (VDbl (fsub a (float_of_Z 1))).
(** double.py 67-69 *)
Definition dbl_double_div m a right : res value :=
  r <- get_float m right ;; q <- py_fdiv m a r ;; Ok (VDbl q).
(** double.py 71-75 *)
Definition dbl_int_div m a right : res value :=
  r <- get_float m right ;; q <- py_fdiv m a r ;;
  z <- py_int_of_float m q ;; Ok (VInt z).
(** double.py 77-79 *)
Definition dbl_modulo m a right : res value :=
  r <- get_float m right ;; x <- py_fmod a r ;; Ok (VDbl x).
(** double.py 81-83 *)
Definition dbl_remainder m a right : res value :=
  r <- get_float m right ;; x <- py_fmod a r ;; Ok (VDbl x).
(** double.py 85-86 *)
Definition dbl_and (m : mode) (a : spec_float) (right : value) : res value :=
  Err NotImplementedErr.
(** double.py 88-92 *)
Definition dbl_equals m a right : res value :=
  r <- get_float m right ;; Ok (som_bool (feq a r)).
(** double.py 94-98 *)
Definition dbl_unequals m a right : res value :=
  r <- get_float m right ;; Ok (som_bool (negb (feq a r))).
(** double.py 100-102: answers a Python bool. *)
Definition dbl_less_than m a right : res bool :=
  r <- get_float m right ;; Ok (flt a r).
(** double.py 104-108 *)
Definition dbl_less_than_or_equal m a right : res value :=
  r <- get_float m right ;; Ok (som_bool (fle a r)).
(** double.py 110-114 *)
Definition dbl_greater_than m a right : res value :=
  r <- get_float m right ;; Ok (som_bool (flt r a)).
(** double.py 116-120 *)
Definition dbl_greater_than_or_equal m a right : res value :=
  r <- get_float m right ;; Ok (som_bool (fle r a)).

(** * class Integer (vmobjects/integer.py) *)

(** get_embedded_integer exists only on Integer (integer.py 16-17): AttributeError on
    any other object. *)
Definition embedded_integer (v : value) : res Z :=
  match v with VInt z => Ok z | _ => Err AttributeError end.

(** integer.py 28-31 *)
Definition int_to_double m (l : Z) : res spec_float := int_tofloat m l.

(** integer.py 33-44 *)
Definition int_less_than m (l : Z) (right : value) : res bool :=
  match right with
  | VBig r => Ok (l <? r)
  | VDbl _ => f <- int_to_double m l ;; dbl_less_than m f right
  | _ => r <- embedded_integer right ;; Ok (l <? r)
  end.
(** integer.py 46-62 *)
Definition int_less_than_or_equal m (l : Z) (right : value) : res value :=
  match right with
  | VBig r => Ok (som_bool (l <=? r))
  | VDbl _ => f <- int_to_double m l ;; dbl_less_than_or_equal m f right
  | _ => r <- embedded_integer right ;; Ok (som_bool (l <=? r))
  end.
(** integer.py 64-80 *)
Definition int_greater_than m (l : Z) (right : value) : res value :=
  match right with
  | VBig r => Ok (som_bool (r <? l))
  | VDbl _ => f <- int_to_double m l ;; dbl_greater_than m f right
  | _ => r <- embedded_integer right ;; Ok (som_bool (r <? l))
  end.
(** integer.py 82-98 *)
Definition int_greater_than_or_equal m (l : Z) (right : value) : res value :=
  match right with
  | VBig r => Ok (som_bool (r <=? l))
  | VDbl _ => f <- int_to_double m l ;; dbl_greater_than_or_equal m f right
  | _ => r <- embedded_integer right ;; Ok (som_bool (r <=? l))
  end.
(** integer.py 110-111: abs on a machine word is unchecked. *)
Definition int_abs m (l : Z) : res value := Ok (VInt (unchecked m (Z.abs l))).
(** rlib/llop.py 9-10 (casts) and 31-36 (fallback). *)
Definition as_32_bit_signed_value m (z : Z) : Z :=
  match m with
  | Translated => (z + 2 ^ 31) mod 2 ^ 32 - 2 ^ 31
  | Hosted =>
      let is_negative := Z.land z 2147483648 =? 2147483648 in
      let v := Z.land z 2147483647 in
      if is_negative then 0 - (2147483648 - v) else v
  end.
(** rlib/llop.py 6-7 and 30-31. *)
Definition as_32_bit_unsigned_value m (z : Z) : Z :=
  match m with
  | Translated => z mod 2 ^ 32
  | Hosted => Z.land z 4294967295
  end.
(** integer.py 113-115 *)
Definition int_as_32_bit_signed m (l : Z) : res value :=
  Ok (VInt (as_32_bit_signed_value m l)).
(** integer.py 117-125 *)
Definition int_inc m (l : Z) : res value :=
  match ovfcheck m (l + 1) with
  | Some z => Ok (VInt z)
  | None => Ok (VBig (l + 1))
  end.
(** integer.py 127-135 *)
Definition int_dec m (l : Z) : res value :=
  match ovfcheck m (l - 1) with
  | Some z => Ok (VInt z)
  | None => Ok (VBig (l - 1))
  end.
(** integer.py 137-155 *)
Definition int_add m (l : Z) (right : value) : res value :=
  match right with
  | VBig r => Ok (VBig (r + l))
  | VDbl _ => f <- int_to_double m l ;; dbl_add m f right
  | _ => r <- embedded_integer right ;;
         match ovfcheck m (l + r) with
         | Some z => Ok (VInt z)
         | None => Ok (VBig (l + r))
         end
  end.
(** integer.py 157-174 *)
Definition int_subtract m (l : Z) (right : value) : res value :=
  match right with
  | VBig r => Ok (VBig (l - r))
  | VDbl _ => f <- int_to_double m l ;; dbl_subtract m f right
  | _ => r <- embedded_integer right ;;
         match ovfcheck m (l - r) with
         | Some z => Ok (VInt z)
         | None => Ok (VBig (l - r))
         end
  end.
(** integer.py 176-193 *)
Definition int_multiply m (l : Z) (right : value) : res value :=
  match right with
  | VBig r => Ok (VBig (l * r))
  | VDbl _ => f <- int_to_double m l ;; dbl_multiply m f right
  | _ => r <- embedded_integer right ;;
         match ovfcheck m (l * r) with
         | Some z => Ok (VInt z)
         | None => Ok (VBig (l * r))
         end
  end.
(** integer.py 195-208: [l / float(r)]. *)
Definition int_double_div m (l : Z) (right : value) : res value :=
  match right with
  | VBig r => q <- big_truediv l r ;; Ok (VDbl q)
  | VDbl _ => f <- int_to_double m l ;; dbl_double_div m f right
  | _ => r <- embedded_integer right ;;
         rf <- int_tofloat m r ;;
         lf <- int_tofloat m l ;;
         q <- py_fdiv m lf rf ;; Ok (VDbl q)
  end.
(** rbigint.floordiv / rbigint.mod: ZeroDivisionError on zero. *)
Definition big_floordiv (x y : Z) : res Z :=
  if y =? 0 then Err ZeroDivisionError else Ok (x / y).
Definition big_mod (x y : Z) : res Z :=
  if y =? 0 then Err ZeroDivisionError else Ok (x mod y).
(** rpython.rlib.rbigint._divrem: truncating division. *)
Definition big_divrem (x y : Z) : res (Z * Z) :=
  if y =? 0 then Err ZeroDivisionError else Ok (Z.quot x y, Z.rem x y).
(** Python [//] and [%] on machine words.  RPython emits no check (there is no handler
    for ZeroDivisionError around): the C division traps for a zero divisor and for
    word_min / -1. *)
Definition py_int_floordiv m (l r : Z) : res Z :=
  match m with
  | Translated =>
      if (r =? 0) || ((l =? word_min) && (r =? -1)) then Err UndefinedBehaviour
      else Ok (l / r)
  | Hosted => if r =? 0 then Err ZeroDivisionError else Ok (l / r)
  end.
Definition py_int_mod m (l r : Z) : res Z :=
  match m with
  | Translated =>
      if (r =? 0) || ((l =? word_min) && (r =? -1)) then Err UndefinedBehaviour
      else Ok (l mod r)
  | Hosted => if r =? 0 then Err ZeroDivisionError else Ok (l mod r)
  end.
(** rlib/llop.py 18 (llop.int_mod: C remainder) and 23-26 (fallback). *)
Definition llop_int_mod m (l r : Z) : res Z :=
  match m with
  | Translated =>
      if (r =? 0) || ((l =? word_min) && (r =? -1)) then Err UndefinedBehaviour
      else Ok (Z.rem l r)
  | Hosted =>
      if r =? 0 then Err ZeroDivisionError
      else if 0 <? l then Ok (Z.abs l mod Z.abs r)
      else Ok (0 - Z.abs l mod Z.abs r)
  end.
(** integer.py 210-223 *)
Definition int_int_div m (l : Z) (right : value) : res value :=
  match right with
  | VBig r => q <- big_floordiv l r ;; Ok (VBig q)
  | VDbl _ => f <- int_to_double m l ;; dbl_int_div m f right
  | _ => r <- embedded_integer right ;;
         q <- py_int_floordiv m l r ;; Ok (VInt q)
  end.
(** integer.py 225-238 *)
Definition int_modulo m (l : Z) (right : value) : res value :=
  match right with
  | VBig r => q <- big_mod l r ;; Ok (VBig q)
  | VDbl _ => f <- int_to_double m l ;; dbl_modulo m f right
  | _ => r <- embedded_integer right ;;
         q <- py_int_mod m l r ;; Ok (VInt q)
  end.
(** integer.py 240-253 *)
Definition int_remainder m (l : Z) (right : value) : res value :=
  match right with
  | VBig r => q <- big_divrem l r ;; Ok (VBig (snd q))
  | VDbl _ => f <- int_to_double m l ;; dbl_remainder m f right
  | _ => r <- embedded_integer right ;;
         q <- llop_int_mod m l r ;; Ok (VInt q)
  end.
(** integer.py 255-268 *)
Definition int_and m (l : Z) (right : value) : res value :=
  match right with
  | VBig r => Ok (VBig (Z.land l r))
  | VDbl _ => f <- int_to_double m l ;; dbl_and m f right
  | _ => r <- embedded_integer right ;; Ok (VInt (Z.land l r))
  end.
(** integer.py 270-289 *)
Definition int_equals m (l : Z) (right : value) : res value :=
  match right with
  | VBig r => Ok (som_bool (l =? r))
  | VDbl f => Ok (som_bool (int_eq_float m l f))
  | VInt r => Ok (som_bool (l =? r))
  | _ => Ok VFalse
  end.
(** integer.py 291-310 *)
Definition int_unequals m (l : Z) (right : value) : res value :=
  match right with
  | VBig r => Ok (som_bool (negb (l =? r)))
  | VDbl f => Ok (som_bool (negb (int_eq_float m l f)))
  | VInt r => Ok (som_bool (negb (l =? r)))
  | _ => Ok VTrue
  end.

(** * class BigInteger (vmobjects/biginteger.py) *)

(** biginteger.py 26-29 *)
Definition big_to_double (l : Z) : res spec_float := big_tofloat l.
(** biginteger.py 31-41 *)
Definition big_less_than m (l : Z) (right : value) : res bool :=
  match right with
  | VDbl _ => f <- big_to_double l ;; dbl_less_than m f right
  | VBig r => Ok (l <? r)
  | _ => r <- embedded_integer right ;; Ok (l <? r)
  end.
(** biginteger.py 43-58 *)
Definition big_less_than_or_equal m (l : Z) (right : value) : res value :=
  match right with
  | VDbl _ => f <- big_to_double l ;; dbl_less_than_or_equal m f right
  | VBig r => Ok (som_bool (l <=? r))
  | _ => r <- embedded_integer right ;; Ok (som_bool (l <=? r))
  end.
(** biginteger.py 60-75 *)
Definition big_greater_than m (l : Z) (right : value) : res value :=
  match right with
  | VDbl _ => f <- big_to_double l ;; dbl_greater_than m f right
  | VBig r => Ok (som_bool (r <? l))
  | _ => r <- embedded_integer right ;; Ok (som_bool (r <? l))
  end.
(** biginteger.py 77-92 *)
Definition big_greater_than_or_equal m (l : Z) (right : value) : res value :=
  match right with
  | VDbl _ => f <- big_to_double l ;; dbl_greater_than_or_equal m f right
  | VBig r => Ok (som_bool (r <=? l))
  | _ => r <- embedded_integer right ;; Ok (som_bool (r <=? l))
  end.
(** biginteger.py 104-105 *)
Definition big_abs (l : Z) : res value := Ok (VBig (Z.abs l)).
(** biginteger.py 107-110: the least significant rbigint digit of the magnitude;
    rbigint digits have SHIFT = 63 bits on 64-bit platforms. *)
Definition big_as_32_bit_signed (l : Z) : res value := Ok (VInt (Z.abs l mod 2 ^ 63)).
(** biginteger.py 112-113 *)
Definition big_inc (l : Z) : res value := Ok (VBig (1 + l)).
(** biginteger.py 115-116: subtracts the receiver from one. *)
Definition big_dec (l : Z) : res value := Ok (VBig (1 - l)).
(** biginteger.py 118-129 *)
Definition big_add m (l : Z) (right : value) : res value :=
  match right with
  | VBig r => Ok (VBig (r + l))
  | VDbl _ => f <- big_to_double l ;; dbl_add m f right
  | _ => r <- embedded_integer right ;; Ok (VBig (r + l))
  end.
(** biginteger.py 131-142 *)
Definition big_subtract m (l : Z) (right : value) : res value :=
  match right with
  | VBig r => Ok (VBig (l - r))
  | VDbl _ => f <- big_to_double l ;; dbl_subtract m f right
  | _ => r <- embedded_integer right ;; Ok (VBig (l - r))
  end.
(** biginteger.py 144-155 *)
Definition big_multiply m (l : Z) (right : value) : res value :=
  match right with
  | VBig r => Ok (VBig (l * r))
  | VDbl _ => f <- big_to_double l ;; dbl_multiply m f right
  | _ => r <- embedded_integer right ;; Ok (VBig (l * r))
  end.
(** biginteger.py 157-168 *)
Definition big_double_div m (l : Z) (right : value) : res value :=
  match right with
  | VBig r => q <- big_truediv l r ;; Ok (VDbl q)
  | VDbl _ => f <- big_to_double l ;; dbl_double_div m f right
  | _ => r <- embedded_integer right ;; q <- big_truediv l r ;; Ok (VDbl q)
  end.
(** biginteger.py 170-181 *)
Definition big_int_div m (l : Z) (right : value) : res value :=
  match right with
  | VBig r => q <- big_floordiv l r ;; Ok (VBig q)
  | VDbl _ => f <- big_to_double l ;; dbl_int_div m f right
  | _ => r <- embedded_integer right ;; q <- big_floordiv l r ;; Ok (VBig q)
  end.
(** biginteger.py 183-194 *)
Definition big_modulo m (l : Z) (right : value) : res value :=
  match right with
  | VBig r => q <- big_mod l r ;; Ok (VBig q)
  | VDbl _ => f <- big_to_double l ;; dbl_modulo m f right
  | _ => r <- embedded_integer right ;; q <- big_mod l r ;; Ok (VBig q)
  end.
(** biginteger.py 196-206: for a BigInteger argument the divisor is the receiver
    itself (199-200). *)
Definition big_remainder (l : Z) (right : value) : res value :=
  rv <- (match right with
         | VBig _ => Ok l
         | VInt r => Ok r
         | _ => Err AssertionError
         end) ;;
  q <- big_divrem l rv ;; Ok (VBig (snd q)).
(** biginteger.py 208-219 (the Double case really calls prim_modulo, 214). *)
Definition big_and m (l : Z) (right : value) : res value :=
  match right with
  | VBig r => Ok (VBig (Z.land l r))
  | VDbl _ => f <- big_to_double l ;; dbl_modulo m f right
  | _ => r <- embedded_integer right ;; Ok (VBig (Z.land l r))
  end.
(** biginteger.py 221-237 *)
Definition big_equals (l : Z) (right : value) : res value :=
  match right with
  | VBig r => Ok (som_bool (l =? r))
  | VDbl f => lf <- big_tofloat l ;; Ok (som_bool (feq lf f))
  | VInt r => Ok (som_bool (l =? r))
  | _ => Ok VFalse
  end.
(** biginteger.py 239-255 *)
Definition big_unequals (l : Z) (right : value) : res value :=
  match right with
  | VBig r => Ok (som_bool (negb (l =? r)))
  | VDbl f => lf <- big_tofloat l ;; Ok (som_bool (negb (feq lf f)))
  | VInt r => Ok (som_bool (negb (l =? r)))
  | _ => Ok VTrue
  end.

(** * Method dispatch [left.prim_xxx(right)] on the Python class of [left].
    Any object that is not a number has no such method: AttributeError. *)
Definition prim_add m (l r : value) : res value :=
  match l with VInt x => int_add m x r | VBig x => big_add m x r
             | VDbl x => dbl_add m x r | _ => Err AttributeError end.
Definition prim_subtract m (l r : value) : res value :=
  match l with VInt x => int_subtract m x r | VBig x => big_subtract m x r
             | VDbl x => dbl_subtract m x r | _ => Err AttributeError end.
Definition prim_multiply m (l r : value) : res value :=
  match l with VInt x => int_multiply m x r | VBig x => big_multiply m x r
             | VDbl x => dbl_multiply m x r | _ => Err AttributeError end.
Definition prim_double_div m (l r : value) : res value :=
  match l with VInt x => int_double_div m x r | VBig x => big_double_div m x r
             | VDbl x => dbl_double_div m x r | _ => Err AttributeError end.
Definition prim_int_div m (l r : value) : res value :=
  match l with VInt x => int_int_div m x r | VBig x => big_int_div m x r
             | VDbl x => dbl_int_div m x r | _ => Err AttributeError end.
Definition prim_modulo m (l r : value) : res value :=
  match l with VInt x => int_modulo m x r | VBig x => big_modulo m x r
             | VDbl x => dbl_modulo m x r | _ => Err AttributeError end.
Definition prim_remainder m (l r : value) : res value :=
  match l with VInt x => int_remainder m x r | VBig x => big_remainder x r
             | VDbl x => dbl_remainder m x r | _ => Err AttributeError end.
Definition prim_and m (l r : value) : res value :=
  match l with VInt x => int_and m x r | VBig x => big_and m x r
             | VDbl x => dbl_and m x r | _ => Err AttributeError end.
Definition prim_equals m (l r : value) : res value :=
  match l with VInt x => int_equals m x r | VBig x => big_equals x r
             | VDbl x => dbl_equals m x r | _ => Err AttributeError end.
Definition prim_unequals m (l r : value) : res value :=
  match l with VInt x => int_unequals m x r | VBig x => big_unequals x r
             | VDbl x => dbl_unequals m x r | _ => Err AttributeError end.
Definition prim_less_than m (l r : value) : res bool :=
  match l with VInt x => int_less_than m x r | VBig x => big_less_than m x r
             | VDbl x => dbl_less_than m x r | _ => Err AttributeError end.
Definition prim_less_than_or_equal m (l r : value) : res value :=
  match l with VInt x => int_less_than_or_equal m x r
             | VBig x => big_less_than_or_equal m x r
             | VDbl x => dbl_less_than_or_equal m x r | _ => Err AttributeError end.
Definition prim_greater_than m (l r : value) : res value :=
  match l with VInt x => int_greater_than m x r | VBig x => big_greater_than m x r
             | VDbl x => dbl_greater_than m x r | _ => Err AttributeError end.
Definition prim_greater_than_or_equal m (l r : value) : res value :=
  match l with VInt x => int_greater_than_or_equal m x r
             | VBig x => big_greater_than_or_equal m x r
             | VDbl x => dbl_greater_than_or_equal m x r | _ => Err AttributeError end.
Definition prim_inc m (l : value) : res value :=
  match l with VInt x => int_inc m x | VBig x => big_inc x
             | VDbl x => dbl_inc x | _ => Err AttributeError end.
Definition prim_dec m (l : value) : res value :=
  match l with VInt x => int_dec m x | VBig x => big_dec x
             | VDbl x => dbl_dec x | _ => Err AttributeError end.
Definition prim_abs m (l : value) : res value :=
  match l with VInt x => int_abs m x | VBig x => big_abs x
             | _ => Err AttributeError end.
Definition prim_as_double m (l : value) : res value :=
  match l with
  | VInt x => f <- int_tofloat m x ;; Ok (VDbl f)      (* integer.py 105-108 *)
  | VBig x => f <- big_tofloat x ;; Ok (VDbl f)        (* biginteger.py 99-102 *)
  | _ => Err AttributeError
  end.
Definition prim_as_32_bit_signed m (l : value) : res value :=
  match l with VInt x => int_as_32_bit_signed m x | VBig x => big_as_32_bit_signed x
             | _ => Err AttributeError end.

(** The inc and dec bytecodes (interpreter/bc/interpreter.py 491-506 and 508-523):
    anything but a number raises "Not yet implemented". *)
Definition bc_inc m (v : value) : res value :=
  match v with
  | VInt _ | VDbl _ | VBig _ => prim_inc m v
  | _ => Err PyException
  end.
Definition bc_dec m (v : value) : res value :=
  match v with
  | VInt _ | VDbl _ | VBig _ => prim_dec m v
  | _ => Err PyException
  end.
(** interpreter/ast/nodes/specialized/int_inc_node.py 12-14, on the evaluated receiver. *)
Definition ast_inc m (v : value) : res value := prim_inc m v.

(** * Primitives (primitives/integer_primitives.py) *)

(** 96-99, 102-105 *)
Definition num_min m (l r : value) : res value :=
  b <- prim_less_than m l r ;; Ok (if (b : bool) then l else r).
Definition num_max m (l r : value) : res value :=
  b <- prim_less_than m l r ;; Ok (if (b : bool) then r else l).
(** 108-111 *)
Definition num_less_than m (l r : value) : res value :=
  b <- prim_less_than m l r ;; Ok (som_bool b).
(** 82-85 *)
Definition int_equals_equals m (l r : value) : res value :=
  match r with
  | VInt _ | VBig _ => prim_equals m l r
  | _ => Ok VFalse
  end.
(** 37-39 *)
Definition p_as_32_bit_unsigned m (l : value) : res value :=
  z <- embedded_integer l ;; Ok (VInt (as_32_bit_unsigned_value m z)).
(** 126-141.  LONG_BIT is 64 translated, 0x8000000000000000 hosted
    (rlib/arithmetic.py 32).  rbigint.lshift raises ValueError on a negative count. *)
Definition long_bit m : Z := match m with Translated => 64 | Hosted => 2 ^ 63 end.
Definition p_left_shift m (l r : value) : res value :=
  match r with
  | VInt rv =>
      lv <- embedded_integer l ;;
      let overflow :=
        if rv <? 0 then Err ValueError else Ok (VBig (Z.shiftl lv rv)) in
      if negb ((lv =? 0) || ((0 <=? rv) && (rv <? long_bit m))) then overflow
      else
        match m with
        | Translated =>
            match ovfcheck m (Z.shiftl lv rv) with
            | Some z => Ok (VInt z)
            | None => overflow
            end
        | Hosted => if rv <? 0 then Err ValueError else Ok (VInt (Z.shiftl lv rv))
        end
  | _ => Err AssertionError
  end.
(** 144-150 with rlib/llop.py 12-16: logical shift of the 64-bit word; a count that is
    not below 64 (as an unsigned word) is undefined.  Fallback 38-39: arithmetic. *)
Definition unsigned_right_shift m (l r : Z) : res Z :=
  match m with
  | Translated =>
      if (0 <=? r) && (r <? 64)
      then Ok (wrap_word (Z.shiftr (l mod 2 ^ 64) r))
      else Err UndefinedBehaviour
  | Hosted => if r <? 0 then Err ValueError else Ok (Z.shiftr l r)
  end.
Definition p_unsigned_right_shift m (l r : value) : res value :=
  match r with
  | VInt rv =>
      lv <- embedded_integer l ;;
      z <- unsigned_right_shift m lv rv ;; Ok (VInt z)
  | _ => Err AssertionError
  end.
(** 153-156 *)
Definition p_bit_xor (l r : value) : res value :=
  match r with
  | VInt rv => lv <- embedded_integer l ;; Ok (VInt (Z.lxor lv rv))
  | _ => Err AssertionError
  end.
(** 42-47.  math.sqrt: ValueError for negative arguments. *)
Definition p_sqrt m (l : value) : res value :=
  match l with
  | VInt z =>
      if z <? 0 then Err ValueError
      else
        f <- int_tofloat m z ;;
        let s := fsqrt f in
        t <- py_int_of_float m s ;;
        tf <- int_tofloat m t ;;
        if feq s tf then Ok (VInt t) else Ok (VDbl s)
  | _ => Err AssertionError
  end.
(** 165-179: the elements of [rcvr to: arg]; [arg + 1] is unchecked.  The resulting
    SOM array (Array.from_integers) is given by its element list. *)
Fixpoint zrange (lo : Z) (n : nat) : list Z :=
  match n with O => [] | S n => lo :: zrange (lo + 1) n end.
Definition p_to m (l r : value) : res (list Z) :=
  match l, r with
  | VInt a, VInt b => let stop := unchecked m (b + 1) in
                      Ok (zrange a (Z.to_nat (stop - a)))
  | _, _ => Err AssertionError
  end.

(** * Primitives (primitives/double_primitives.py) *)

(** round_double (rlib/float.py 18-33; rpython.rlib.rfloat.round_double(x, 0) computes the
    same): the floor of |x| + 0.5, computed in doubles, with the sign of x.  The floor of
    a double is a double, so [float_of_Z] is exact here.  For infinities and NaN the floor
    fails as int() does under Python; translated, they are unchanged.  Then _round,
    double_primitives.py 76-80. *)
Definition one_half : spec_float := S754_finite false (2 ^ 52) (-53).
Definition py_copysign (f g : spec_float) : spec_float :=
  let s := match g with
           | S754_zero s | S754_infinity s | S754_finite s _ _ => s
           | S754_nan => false
           end in
  if s then SFopp (SFabs f) else SFabs f.
Definition round_double (f : spec_float) : spec_float :=
  let abs_value := SFabs f in
  match trunc_Z (fadd abs_value one_half) with
  | Some r =>
      let rounded := float_of_Z r in
      if flt (fsub rounded abs_value) (float_of_Z 1) then py_copysign rounded f else f
  | None => f
  end.
Definition d_round m (v : value) : res value :=
  match v with
  | VDbl f => z <- py_int_of_float m (round_double f) ;; Ok (VInt z)
  | _ => Err AttributeError
  end.
(** 83-86 *)
Definition d_as_integer m (v : value) : res value :=
  match v with
  | VDbl f => z <- py_int_of_float m f ;; Ok (VInt z)
  | _ => Err AttributeError
  end.

(** * What a send runs.
    The installation tables: integer_primitives.py 196-238 and
    double_primitives.py 107-140.  Integer and BigInteger both answer integer_class
    (integer.py 22-23, biginteger.py 20-21), so they share the integer table.
    Messages with no entry are [NotInstalled].  [to:] answers an array and is
    [p_to]; loops are in LoopModel; text conversions in NumTextModel; sin, cos and
    PositiveInfinity are not modelled. *)
Open Scope string_scope.
Definition integer_binary (m : mode) (sel : string) : option (value -> value -> res value) :=
  if sel =? "+" then Some (prim_add m)
  else if sel =? "-" then Some (prim_subtract m)
  else if sel =? "*" then Some (prim_multiply m)
  else if sel =? "//" then Some (prim_double_div m)
  else if sel =? "/" then Some (prim_int_div m)
  else if sel =? "%" then Some (prim_modulo m)
  else if sel =? "rem:" then Some (prim_remainder m)
  else if sel =? "&" then Some (prim_and m)
  else if sel =? "==" then Some (int_equals_equals m)
  else if sel =? "=" then Some (prim_equals m)
  else if sel =? "<" then Some (num_less_than m)
  else if sel =? "<=" then Some (prim_less_than_or_equal m)
  else if sel =? ">" then Some (prim_greater_than m)
  else if sel =? ">=" then Some (prim_greater_than_or_equal m)
  else if sel =? "<>" then Some (prim_unequals m)
  else if sel =? "~=" then Some (prim_unequals m)
  else if sel =? "<<" then Some (p_left_shift m)
  else if sel =? "bitXor:" then Some p_bit_xor
  else if sel =? ">>>" then Some (p_unsigned_right_shift m)
  else if sel =? "max:" then Some (num_max m)
  else if sel =? "min:" then Some (num_min m)
  else None.

Definition integer_unary (m : mode) (sel : string) : option (value -> res value) :=
  if sel =? "asDouble" then Some (prim_as_double m)
  else if sel =? "as32BitSignedValue" then Some (prim_as_32_bit_signed m)
  else if sel =? "as32BitUnsignedValue" then Some (p_as_32_bit_unsigned m)
  else if sel =? "sqrt" then Some (p_sqrt m)
  else if sel =? "abs" then Some (prim_abs m)
  else None.

Definition double_binary (m : mode) (sel : string) : option (value -> value -> res value) :=
  if sel =? "+" then Some (prim_add m)
  else if sel =? "-" then Some (prim_subtract m)
  else if sel =? "*" then Some (prim_multiply m)
  else if sel =? "//" then Some (prim_double_div m)
  else if sel =? "%" then Some (prim_modulo m)
  else if sel =? "=" then Some (prim_equals m)
  else if sel =? "<" then Some (num_less_than m)
  else if sel =? "<=" then Some (prim_less_than_or_equal m)
  else if sel =? ">" then Some (prim_greater_than m)
  else if sel =? ">=" then Some (prim_greater_than_or_equal m)
  else if sel =? "<>" then Some (prim_unequals m)
  else if sel =? "~=" then Some (prim_unequals m)
  else if sel =? "max:" then Some (num_max m)
  else if sel =? "min:" then Some (num_min m)
  else None.

Definition double_unary (m : mode) (sel : string) : option (value -> res value) :=
  if sel =? "round" then Some (d_round m)
  else if sel =? "asInteger" then Some (d_as_integer m)
  else None.

(** Sending a binary (one-argument) or unary message to a number. *)
Definition send1 (m : mode) (rcvr : value) (sel : string) (arg : value) : res value :=
  let table := match rcvr with
               | VInt _ | VBig _ => integer_binary m sel
               | VDbl _ => double_binary m sel
               | _ => None
               end in
  match table with Some f => f rcvr arg | None => Err NotInstalled end.

Definition send0 (m : mode) (rcvr : value) (sel : string) : res value :=
  let table := match rcvr with
               | VInt _ | VBig _ => integer_unary m sel
               | VDbl _ => double_unary m sel
               | _ => None
               end in
  match table with Some f => f rcvr | None => Err NotInstalled end.
