(** Property theorems about numbers: C01-C09, and the array part of C11. *)
From Coq Require Import ZArith Bool String List Floats.SpecFloat Lia.
From Verif Require Import Base NumModel NumSpec NumProofs.
Import ListNotations.
Open Scope Z_scope.

(** * C01 *)
Theorem C01_add_exact : forall m a b x y,
  valid m a -> valid m b -> int_val a = Some x -> int_val b = Some y ->
  exists v, send1 m a "+" b = Ok v /\ int_val v = Some (x + y) /\ valid m v
    /\ (is_word v <-> is_word a /\ is_word b /\ word_sized m (x + y)).
Proof. intros m a b x y Va Vb Ha Hb. rewrite (send1_int _ _ _ _ _ Ha). exact (add_exact m a b x y Va Vb Ha Hb). Qed.
Print Assumptions C01_add_exact.

Theorem C01_subtract_exact : forall m a b x y,
  valid m a -> valid m b -> int_val a = Some x -> int_val b = Some y ->
  exists v, send1 m a "-" b = Ok v /\ int_val v = Some (x - y) /\ valid m v
    /\ (is_word v <-> is_word a /\ is_word b /\ word_sized m (x - y)).
Proof. intros m a b x y Va Vb Ha Hb. rewrite (send1_int _ _ _ _ _ Ha). exact (sub_exact m a b x y Va Vb Ha Hb). Qed.
Print Assumptions C01_subtract_exact.

Theorem C01_multiply_exact : forall m a b x y,
  valid m a -> valid m b -> int_val a = Some x -> int_val b = Some y ->
  exists v, send1 m a "*" b = Ok v /\ int_val v = Some (x * y) /\ valid m v
    /\ (is_word v <-> is_word a /\ is_word b /\ word_sized m (x * y)).
Proof. intros m a b x y Va Vb Ha Hb. rewrite (send1_int _ _ _ _ _ Ha). exact (mul_exact m a b x y Va Vb Ha Hb). Qed.
Print Assumptions C01_multiply_exact.

(** The hypotheses are met at the edge of the word range, where the result is promoted. *)
Example C01_nonvacuous :
  valid Translated (VInt (2 ^ 63 - 1)) /\ valid Translated (VInt 1)
  /\ send1 Translated (VInt (2 ^ 63 - 1)) "+" (VInt 1) = Ok (VBig (2 ^ 63))
  /\ send1 Translated (VBig (2 ^ 70)) "-" (VBig (2 ^ 70)) = Ok (VBig 0)
  /\ send1 Translated (VInt (- 2 ^ 63)) "*" (VInt (-1)) = Ok (VBig (2 ^ 63)).
Proof. unfold valid. repeat split; lia || reflexivity. Qed.

(** * C02 *)
Theorem C02_increment_is_plus_one : forall m v, is_number v ->
  bc_inc m v = send1 m v "+" (VInt 1) /\ ast_inc m v = send1 m v "+" (VInt 1).
Proof. exact inc_eq. Qed.
Print Assumptions C02_increment_is_plus_one.

Theorem C02_decrement_is_minus_one_partial : forall m v, is_number v -> (forall z, v <> VBig z) ->
  bc_dec m v = send1 m v "-" (VInt 1).
Proof. exact dec_eq. Qed.
Print Assumptions C02_decrement_is_minus_one_partial.

(** Exactly which arbitrary-precision receivers are decremented correctly: only 1. *)
Theorem C02_decrement_big : forall m z,
  bc_dec m (VBig z) = send1 m (VBig z) "-" (VInt 1) <-> z = 1.
Proof. exact dec_big_iff. Qed.
Print Assumptions C02_decrement_big.

Theorem C02_decrement_refuted :
  exists v, is_number v /\ valid Translated v
    /\ send1 Translated v "-" (VInt 1) = Ok (VBig (2 ^ 64 - 1))
    /\ bc_dec Translated v = Ok (VBig (1 - 2 ^ 64)).
Proof. exists (VBig (2 ^ 64)). repeat split. Qed.
Print Assumptions C02_decrement_refuted.

Example C02_nonvacuous : bc_inc Translated (VInt (2 ^ 63 - 1)) = Ok (VBig (2 ^ 63))
  /\ bc_dec Translated (VInt (- 2 ^ 63)) = Ok (VBig (- 2 ^ 63 - 1))
  /\ bc_inc Translated (VDbl (S754_finite false 1 (-1))) <> bc_inc Translated (VInt 0).
Proof. repeat split. discriminate. Qed.

(** * C03 *)
Theorem C03_order : forall m a b x y, int_val a = Some x -> int_val b = Some y ->
  answers_bool (send1 m a "<" b) (x < y)
  /\ answers_bool (send1 m a "<=" b) (x <= y)
  /\ answers_bool (send1 m a ">" b) (x > y)
  /\ answers_bool (send1 m a ">=" b) (x >= y)
  /\ answers_bool (send1 m a "=" b) (x = y)
  /\ answers_bool (send1 m a "==" b) (x = y)
  /\ answers_bool (send1 m a "<>" b) (x <> y)
  /\ answers_bool (send1 m a "~=" b) (x <> y).
Proof.
  intros m a b x y Ha Hb.
  exact (conj (lt_ok m a b x y Ha Hb) (conj (le_ok m a b x y Ha Hb) (conj (gt_ok m a b x y Ha Hb)
        (conj (ge_ok m a b x y Ha Hb) (conj (eq_ok m a b x y Ha Hb) (conj (eqeq_ok m a b x y Ha Hb)
        (conj (ne_ok m a b x y Ha Hb) (ne2_ok m a b x y Ha Hb)))))))).
Qed.
Print Assumptions C03_order.

Theorem C03_equals_non_number : forall m a x b, int_val a = Some x -> ~ is_number b ->
  send1 m a "=" b = Ok VFalse /\ send1 m a "<>" b = Ok VTrue
  /\ send1 m a "~=" b = Ok VTrue /\ send1 m a "==" b = Ok VFalse.
Proof. exact eq_non_number. Qed.
Print Assumptions C03_equals_non_number.

Example C03_nonvacuous : send1 Translated (VInt 3) "<" (VBig (2 ^ 65)) = Ok VTrue
  /\ send1 Translated (VBig 3) "=" (VInt 3) = Ok VTrue
  /\ send1 Translated (VInt 3) "=" (VStr "3") = Ok VFalse.
Proof. repeat split. Qed.

(** * C04 *)
Theorem C04_floor_division_partial : forall m a b x y,
  valid m a -> valid m b -> int_val a = Some x -> int_val b = Some y -> y <> 0 ->
  ~ (m = Translated /\ a = VInt (- 2 ^ 63) /\ b = VInt (-1)) ->
  exists q r, answers_int m (send1 m a "/" b) q /\ answers_int m (send1 m a "%" b) r
    /\ x = q * y + r /\ (0 <= r < y \/ y < r <= 0).
Proof. exact floor_div. Qed.
Print Assumptions C04_floor_division_partial.

Theorem C04_zero_divisor_fails : forall m a b x sel, int_val a = Some x -> int_val b = Some 0 ->
  In sel ["/"; "%"]%string -> fails (send1 m a sel b).
Proof. exact div_zero_fails. Qed.
Print Assumptions C04_zero_divisor_fails.

(** The one excluded pair: the translated VM performs an unchecked machine division. *)
Theorem C04_floor_division_refuted :
  exists a b, valid Translated a /\ valid Translated b /\ int_val b = Some (-1)
    /\ send1 Translated a "/" b = Err UndefinedBehaviour
    /\ send1 Translated a "%" b = Err UndefinedBehaviour.
Proof. exists (VInt (- 2 ^ 63)), (VInt (-1)). unfold valid. repeat split; lia. Qed.
Print Assumptions C04_floor_division_refuted.

Example C04_nonvacuous : send1 Translated (VInt (-7)) "/" (VInt 2) = Ok (VInt (-4))
  /\ send1 Translated (VInt (-7)) "%" (VInt 2) = Ok (VInt 1)
  /\ send1 Translated (VInt 7) "%" (VInt (-2)) = Ok (VInt (-1))
  /\ send1 Translated (VBig (2 ^ 64)) "/" (VInt (-3)) = Ok (VBig (-6148914691236517206)).
Proof. repeat split. Qed.

(** * C05 *)
Theorem C05_rem_partial : forall m a b x y,
  valid m a -> valid m b -> int_val a = Some x -> int_val b = Some y -> y <> 0 ->
  ~ (m = Translated /\ a = VInt (- 2 ^ 63) /\ b = VInt (-1)) ->
  ~ ((exists x, a = VBig x) /\ (exists y, b = VBig y)) ->
  exists r, answers_int m (send1 m a "rem:" b) r
    /\ (exists k, x - r = k * y) /\ Z.abs r < Z.abs y /\ (r = 0 \/ Z.sgn r = Z.sgn x).
Proof.
  intros m a b x y Va Vb Ha Hb Hy Ht Hbb.
  exact (ex_intro _ (Z.rem x y) (conj (rem_ok m a b x y Va Vb Ha Hb Hy Ht Hbb) (rem_char x y Hy))).
Qed.
Print Assumptions C05_rem_partial.

(** For two arbitrary-precision operands the argument is ignored. *)
Theorem C05_rem_big_big : forall m x y, send1 m (VBig x) "rem:" (VBig y) =
  if x =? 0 then Err ZeroDivisionError else Ok (VBig 0).
Proof. exact rem_big_big. Qed.
Print Assumptions C05_rem_big_big.

Theorem C05_rem_refuted : exists x y,
  send1 Translated (VBig x) "rem:" (VBig y) = Ok (VBig 0)
  /\ ~ (exists k, x - 0 = k * y) /\ y <> 0.
Proof.
  exists (2 ^ 70 + 1), (2 ^ 70).
  split; [reflexivity|]. split; [|lia]. intros [k Hk]. lia.
Qed.
Print Assumptions C05_rem_refuted.

Example C05_nonvacuous : send1 Translated (VInt (-7)) "rem:" (VInt 2) = Ok (VInt (-1))
  /\ send1 Hosted (VInt (-7)) "rem:" (VInt 2) = Ok (VInt (-1))
  /\ send1 Translated (VBig (- 2 ^ 64)) "rem:" (VInt 7) = Ok (VBig (-2)).
Proof. repeat split. Qed.

(** * C06 *)
Theorem C06_and_bits : forall m a b x y,
  valid m a -> valid m b -> int_val a = Some x -> int_val b = Some y ->
  exists z, answers_int m (send1 m a "&" b) z
    /\ forall i, Z.testbit z i = Z.testbit x i && Z.testbit y i.
Proof. exact and_ok. Qed.
Print Assumptions C06_and_bits.

Theorem C06_xor_bits : forall m x y, valid m (VInt x) -> valid m (VInt y) ->
  exists z, answers_int m (send1 m (VInt x) "bitXor:" (VInt y)) z
    /\ forall i, Z.testbit z i = xorb (Z.testbit x i) (Z.testbit y i).
Proof. exact xor_ok. Qed.
Print Assumptions C06_xor_bits.

Theorem C06_left_shift_exact : forall m x n,
  valid m (VInt x) -> valid m (VInt n) -> 0 <= n -> (m = Hosted -> n < 2 ^ 63) ->
  answers_int m (send1 m (VInt x) "<<" (VInt n)) (x * 2 ^ n).
Proof. exact shl_ok. Qed.
Print Assumptions C06_left_shift_exact.

Theorem C06_left_shift_negative_fails : forall m x n, n < 0 -> x <> 0 ->
  fails (send1 m (VInt x) "<<" (VInt n)).
Proof. exact shl_negative. Qed.
Print Assumptions C06_left_shift_negative_fails.

Theorem C06_logical_right_shift : forall x n, valid Translated (VInt x) -> 0 <= n < 64 ->
  exists z, answers_int Translated (send1 Translated (VInt x) ">>>" (VInt n)) z
    /\ z mod 2 ^ 64 = (x mod 2 ^ 64) / 2 ^ n.
Proof. exact ushr_ok. Qed.
Print Assumptions C06_logical_right_shift.

Theorem C06_to_32_bits : forall m x, valid m (VInt x) ->
  (exists s, answers_int m (send0 m (VInt x) "as32BitSignedValue") s
     /\ - 2 ^ 31 <= s < 2 ^ 31 /\ s mod 2 ^ 32 = x mod 2 ^ 32)
  /\ (exists u, answers_int m (send0 m (VInt x) "as32BitUnsignedValue") u
     /\ 0 <= u < 2 ^ 32 /\ u mod 2 ^ 32 = x mod 2 ^ 32).
Proof. exact to_32_ok. Qed.
Print Assumptions C06_to_32_bits.

(** Arbitrary-precision receivers: as32BitSignedValue answers a 63-bit digit,
    as32BitUnsignedValue, bitXor: and << fail. *)
Theorem C06_big_receivers_refuted :
  send0 Translated (VBig (2 ^ 64 + 2 ^ 40)) "as32BitSignedValue" = Ok (VInt (2 ^ 40))
  /\ fails (send0 Translated (VBig (2 ^ 64)) "as32BitUnsignedValue")
  /\ fails (send1 Translated (VBig (2 ^ 64)) "bitXor:" (VInt 1))
  /\ fails (send1 Translated (VBig (2 ^ 64)) "<<" (VInt 1)).
Proof. repeat split; intros v; discriminate. Qed.
Print Assumptions C06_big_receivers_refuted.

(** Under plain Python >>> is an arithmetic shift: the two modes disagree. *)
Theorem C06_right_shift_hosted_refuted :
  send1 Translated (VInt (-1)) ">>>" (VInt 1) = Ok (VInt (2 ^ 63 - 1))
  /\ send1 Hosted (VInt (-1)) ">>>" (VInt 1) = Ok (VInt (-1)).
Proof. split; reflexivity. Qed.
Print Assumptions C06_right_shift_hosted_refuted.

Example C06_nonvacuous : send1 Translated (VInt 1) "<<" (VInt 63) = Ok (VBig (2 ^ 63))
  /\ send1 Translated (VInt (-1)) "<<" (VInt 63) = Ok (VInt (- 2 ^ 63))
  /\ send1 Translated (VInt 1) "<<" (VInt 200) = Ok (VBig (2 ^ 200))
  /\ send0 Hosted (VInt 4294967295) "as32BitSignedValue" = Ok (VInt (-1))
  /\ send1 Translated (VInt (-2)) "&" (VBig (2 ^ 64 + 3)) = Ok (VBig (2 ^ 64 + 2)).
Proof. repeat split. Qed.

(** * C07 *)
(** Integer receiver.  Under plain Python = and ~= compare exactly instead. *)
Theorem C07_integer_op_double : forall m a x f d sel,
  int_val a = Some x -> send0 m a "asDouble" = Ok (VDbl f) ->
  In sel (["+"; "-"; "*"; "//"; "%"; "<"; "<="; ">"; ">="]%string ++
          match m with Translated => ["="; "<>"; "~="]%string | Hosted => [] end) ->
  send1 m a sel (VDbl d) = send1 m (VDbl f) sel (VDbl d).
Proof. exact mixed_left. Qed.
Print Assumptions C07_integer_op_double.

Theorem C07_double_op_integer : forall m a x f d sel,
  int_val a = Some x -> send0 m a "asDouble" = Ok (VDbl f) ->
  In sel (["+"; "-"; "*"; "//"; "%"; "<"; "<="; ">"; ">="; "="; "<>"; "~="])%string ->
  send1 m (VDbl d) sel a = send1 m (VDbl d) sel (VDbl f).
Proof. exact mixed_right. Qed.
Print Assumptions C07_double_op_integer.

Example C07_nonvacuous :
  let half := S754_finite false (2 ^ 52) (-53) in
  send0 Translated (VInt 3) "asDouble" = Ok (VDbl (S754_finite false 6755399441055744 (-51)))
  /\ send1 Translated (VInt 3) "*" (VDbl half) = Ok (VDbl (S754_finite false 6755399441055744 (-52)))
  /\ send1 Translated (VDbl half) "<" (VInt 3) = Ok VTrue.
Proof. vm_compute. repeat split. Qed.

(** * C08 *)
Theorem C08_equals_reflexive : forall m a, is_number a -> a <> VDbl S754_nan ->
  send1 m a "=" a = Ok VTrue.
Proof. exact eq_refl_num. Qed.
Print Assumptions C08_equals_reflexive.

Theorem C08_equals_symmetric : forall a b, is_number a -> is_number b ->
  send1 Translated a "=" b = send1 Translated b "=" a.
Proof. exact eq_sym_num. Qed.
Print Assumptions C08_equals_symmetric.

Theorem C08_equals_transitive_partial : forall m a b c,
  (exists x, int_val a = Some x) -> (exists x, int_val b = Some x) -> (exists x, int_val c = Some x) ->
  send1 m a "=" b = Ok VTrue -> send1 m b "=" c = Ok VTrue -> send1 m a "=" c = Ok VTrue.
Proof. exact eq_trans_int. Qed.
Print Assumptions C08_equals_transitive_partial.

Theorem C08_equals_transitive_refuted : exists a b c,
  is_number a /\ is_number b /\ is_number c
  /\ send1 Translated a "=" b = Ok VTrue /\ send1 Translated b "=" c = Ok VTrue
  /\ send1 Translated a "=" c = Ok VFalse.
Proof.
  exists (VInt (2 ^ 53)), (VDbl (S754_finite false (2 ^ 52) 1)), (VInt (2 ^ 53 + 1)).
  vm_compute. repeat split.
Qed.
Print Assumptions C08_equals_transitive_refuted.

Theorem C08_equals_total_refuted :
  fails (send1 Translated (VDbl (S754_finite false (3 * 2 ^ 51) (-52))) "=" VNil)
  /\ fails (send1 Translated (VBig (2 ^ 1100)) "=" (VDbl (S754_zero false))).
Proof. split; intros v; vm_compute; discriminate. Qed.
Print Assumptions C08_equals_total_refuted.

(** Under plain Python an Integer receiver compares exactly and a Double receiver converts. *)
Theorem C08_equals_symmetric_refuted : exists a b, is_number a /\ is_number b /\ valid Hosted a /\ valid Hosted b /\
  send1 Hosted a "=" b = Ok VFalse /\ send1 Hosted b "=" a = Ok VTrue.
Proof. exists (VInt (2 ^ 53 + 1)), (VDbl (S754_finite false (2 ^ 52) 1)). vm_compute. repeat split. Qed.
Print Assumptions C08_equals_symmetric_refuted.

Example C08_nonvacuous :
  let half := VDbl (S754_finite false (2 ^ 52) (-53)) in
  is_number half /\ is_number (VBig (2 ^ 70)) /\ half <> VDbl S754_nan /\
  send1 Translated half "=" half = Ok VTrue /\ send1 Translated half "=" (VBig (2 ^ 70)) = Ok VFalse /\
  send1 Translated (VInt 5) "=" (VBig 5) = Ok VTrue /\ send1 Translated (VBig 5) "=" (VInt 5) = Ok VTrue.
Proof. repeat split; try discriminate; vm_compute; reflexivity. Qed.

(** * C09 *)
Theorem C09_min : forall m a b x y, int_val a = Some x -> int_val b = Some y ->
  exists v, send1 m a "min:" b = Ok v /\ (v = a \/ v = b) /\ int_val v = Some (Z.min x y).
Proof. exact min_ok. Qed.
Print Assumptions C09_min.
Theorem C09_max : forall m a b x y, int_val a = Some x -> int_val b = Some y ->
  exists v, send1 m a "max:" b = Ok v /\ (v = a \/ v = b) /\ int_val v = Some (Z.max x y).
Proof. exact max_ok. Qed.
Print Assumptions C09_max.
Theorem C09_abs_partial : forall m a x, valid m a -> int_val a = Some x ->
  ~ (m = Translated /\ a = VInt (- 2 ^ 63)) ->
  answers_int m (send0 m a "abs") (Z.abs x).
Proof. exact abs_ok. Qed.
Print Assumptions C09_abs_partial.
Theorem C09_abs_refuted : exists a, valid Translated a
  /\ send0 Translated a "abs" = Ok (VInt (- 2 ^ 63)).
Proof. exists (VInt (- 2 ^ 63)). unfold valid. split; [lia|reflexivity]. Qed.
Print Assumptions C09_abs_refuted.
Example C09_nonvacuous : send1 Translated (VInt 3) "min:" (VBig (2 ^ 64)) = Ok (VInt 3)
  /\ send1 Translated (VInt 3) "max:" (VBig (2 ^ 64)) = Ok (VBig (2 ^ 64))
  /\ send0 Translated (VInt (-5)) "abs" = Ok (VInt 5).
Proof. repeat split. Qed.

(** * C11 (to:) *)
Theorem C11_to_array_partial : forall m a b, valid m (VInt a) -> valid m (VInt b) ->
  ~ (m = Translated /\ b = 2 ^ 63 - 1) ->
  exists l, p_to m (VInt a) (VInt b) = Ok l
    /\ Z.of_nat (length l) = Z.max 0 (b - a + 1)
    /\ forall k, (k < length l)%nat -> nth_error l k = Some (a + Z.of_nat k).
Proof. exact to_ok. Qed.
Print Assumptions C11_to_array_partial.
Theorem C11_to_array_refuted :
  p_to Translated (VInt (2 ^ 63 - 2)) (VInt (2 ^ 63 - 1)) = Ok [].
Proof. reflexivity. Qed.
Print Assumptions C11_to_array_refuted.
Example C11_to_nonvacuous : p_to Translated (VInt (-1)) (VInt 2) = Ok [-1; 0; 1; 2].
Proof. reflexivity. Qed.
