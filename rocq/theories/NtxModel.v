(** Integers as text: asString, fromString: and the integer literals of the parser.
    src/som/primitives/integer_primitives.py, src/som/vmobjects/{integer,biginteger}.py,
    src/som/compiler/parser.py, src/rlib/arithmetic.py. *)
From Coq Require Import ZArith Bool String Ascii List.
From Verif Require Import Base LexModel.
Import ListNotations.
Open Scope Z_scope.
Open Scope list_scope.

(** * Writing *)
(** The decimal digits of [z >= 0], least significant first; at most [fuel] of them. *)
Fixpoint low_digits (fuel : nat) (z : Z) : list Z :=
  match fuel with
  | O => []
  | S fuel => z mod 10 :: (if z / 10 =? 0 then [] else low_digits fuel (z / 10))
  end.
Definition digit_char (d : Z) : ascii := ascii_of_nat (48 + Z.to_nat d).
(** str() of an int and rbigint.str(): library functions, modelled by repeated division by
    ten.  (A number has fewer decimal digits than binary ones.) *)
Definition py_str (z : Z) : text :=
  let ds := map digit_char (rev (low_digits (S (Z.to_nat (Z.log2 (Z.abs z)))) (Z.abs z))) in
  if z <? 0 then "-"%char :: ds else ds.
(** _as_string (integer_primitives.py 25-26), Integer.prim_as_string (integer.py 100-103),
    BigInteger.prim_as_string (biginteger.py 94-97) *)
Definition as_string (rcvr : value) : res value :=
  match rcvr with
  | VInt z | VBig z => Ok (VStr (string_of_list_ascii (py_str z)))
  | _ => Err AttributeError
  end.

(** * Reading *)
Definition char_digit (c : ascii) : option Z :=
  let n := nat_of_ascii c in
  if (Nat.leb 48 n && Nat.leb n 57)%bool then Some (Z.of_nat n - 48) else None.
Inductive parsed := Number (z : Z) | Overflow | NoNumber.
(** rpython.rlib.rarithmetic.string_to_int (rlib/arithmetic.py 5), a library function: an
    optional sign, then digits; every step is checked for overflow, in the direction of the
    sign.  Under plain Python it is int() (rlib/arithmetic.py 26), which does not overflow.
    Simplification: spaces around the number and underscores in it, which both functions
    may accept, count as no number. *)
Fixpoint read_digits (m : mode) (neg : bool) (acc : Z) (s : text) : parsed :=
  match s with
  | [] => Number acc
  | c :: s =>
      match char_digit c with
      | Some d =>
          match ovfcheck m (acc * 10) with
          | Some a =>
              match ovfcheck m (a + (if neg then - d else d)) with
              | Some a => read_digits m neg a s
              | None => Overflow
              end
          | None => Overflow
          end
      | None => NoNumber
      end
  end.
Definition read_signed (m : mode) (s : text) : parsed :=
  match s with
  | "-"%char :: c :: s => read_digits m true 0 (c :: s)
  | "+"%char :: c :: s => read_digits m false 0 (c :: s)
  | c :: s => read_digits m false 0 (c :: s)
  | [] => NoNumber
  end.
Definition string_to_int (m : mode) (s : text) : parsed := read_signed m s.
(** rbigint.fromstr / int(): the same without bounds (rlib/arithmetic.py 9, 20-21) *)
Definition bigint_from_str (s : text) : res Z :=
  match read_signed Hosted s with Number z => Ok z | _ => Err ValueError end.
(** _from_string (integer_primitives.py 182-193); a ValueError is not caught. *)
Definition from_string (m : mode) (param : value) : res value :=
  match param with
  | VStr str =>
      let s := list_ascii_of_string str in
      match string_to_int m s with
      | Number z => Ok (VInt z)
      | Overflow => b <- bigint_from_str s ;; Ok (VBig b)
      | NoNumber => Err ValueError
      end
  | VSym str =>  (* Symbol is a subclass of String (vmobjects/symbol.py 5) *)
      let s := list_ascii_of_string str in
      match string_to_int m s with
      | Number z => Ok (VInt z)
      | Overflow => b <- bigint_from_str s ;; Ok (VBig b)
      | NoNumber => Err ValueError
      end
  | _ => Ok VNil
  end.
(** _literal_integer (compiler/parser.py 289-312): the digits of the token and whether a
    minus sign stands before them; _set_sign(-1) makes the (positive) number negative. *)
Definition literal_integer (m : mode) (neg : bool) (s : text) : res value :=
  match string_to_int m s with
  | Number i => Ok (VInt (if neg then 0 - i else i))
  | Overflow => b <- bigint_from_str s ;; Ok (VBig (if neg then - Z.abs b else b))
  | NoNumber => Err PyException
  end.
