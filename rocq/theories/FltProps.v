(** Theorems about the rounding of arithmetic on doubles.  [units f] (DblSpec) is the exact value of
    a finite double in units of 2^-1074, [unit_scale] is 1 in these units, and [rounds_to p q f] and
    [rounds_to_root p f] (FltSpec) say that [f] is the double nearest to [p / q] units, or to the
    square root of [p] units. *)
From Coq Require Import ZArith Bool String List Lia Floats.SpecFloat.
From Verif Require Import Base NumModel NumSpec DblSpec DblProofs DblRound DblArith FltModel FltSpec FltProofs FltOps FltRoot.
Import ListNotations.
Open Scope Z_scope.

(** * C75 *)
(** Sum, difference and product of finite doubles.  A result that is exactly zero has the sign of
    IEEE 754. *)
Theorem C75_add : forall m f g u v, binary64 f -> binary64 g -> units f = Some u -> units g = Some v ->
  exists h, send1 m (VDbl f) "+" (VDbl g) = Ok (VDbl h) /\ rounds_to (u + v) 1 h /\
    (u + v = 0 -> h = S754_zero (negative f && negative g)).
Proof.
  intros m f g u v Bf Bg Uf Ug. exists (fadd f g). split; [reflexivity|].
  split; [exact (proj1 (rounds_sum f g u v Bf Bg Uf Ug))|exact (proj1 (zero_sum f g u v Bf Bg Uf Ug))].
Qed.
Print Assumptions C75_add.
Theorem C75_subtract : forall m f g u v, binary64 f -> binary64 g -> units f = Some u -> units g = Some v ->
  exists h, send1 m (VDbl f) "-" (VDbl g) = Ok (VDbl h) /\ rounds_to (u - v) 1 h /\
    (u - v = 0 -> h = S754_zero (negative f && negb (negative g))).
Proof.
  intros m f g u v Bf Bg Uf Ug. exists (fsub f g). split; [reflexivity|].
  split; [exact (proj2 (rounds_sum f g u v Bf Bg Uf Ug))|exact (proj2 (zero_sum f g u v Bf Bg Uf Ug))].
Qed.
Print Assumptions C75_subtract.
Theorem C75_multiply : forall m f g u v, binary64 f -> binary64 g -> units f = Some u -> units g = Some v ->
  exists h, send1 m (VDbl f) "*" (VDbl g) = Ok (VDbl h) /\ rounds_to (u * v) unit_scale h /\
    (u * v = 0 -> h = S754_zero (xorb (negative f) (negative g))).
Proof.
  intros m f g u v Bf Bg Uf Ug. exists (fmul f g). split; [reflexivity|].
  split; [exact (rounds_mul f g u v Bf Bg Uf Ug)|exact (proj1 (zero_product f g u v Bf Bg Uf Ug))].
Qed.
Print Assumptions C75_multiply.

(** Quotient: [u / v], as the fraction of [sgn v * u] and [|v|]. *)
Theorem C75_divide : forall m f g u v, binary64 f -> binary64 g -> units f = Some u -> units g = Some v -> v <> 0 ->
  exists h, send1 m (VDbl f) "//" (VDbl g) = Ok (VDbl h) /\ rounds_to (Z.sgn v * u * unit_scale) (Z.abs v) h /\
    (u = 0 -> h = S754_zero (xorb (negative f) (negative g))).
Proof.
  intros m f g u v Bf Bg Uf Ug Nv. exists (fdiv f g).
  split; [change (send1 m (VDbl f) "//" (VDbl g)) with (q <- py_fdiv m f g ;; Ok (VDbl q)); rewrite (fdiv_hosted m f g v Ug Nv); reflexivity|].
  split; [exact (rounds_div f g u v Bf Bg Uf Ug Nv)|]. intros E. exact (proj2 (zero_product f g u v Bf Bg Uf Ug) E Nv).
Qed.
Print Assumptions C75_divide.
(** By zero: an exception under plain Python, infinity or NaN in the translated VM. *)
Theorem C75_divide_by_zero : forall f g u, binary64 f -> binary64 g -> units f = Some u -> units g = Some 0 ->
  send1 Hosted (VDbl f) "//" (VDbl g) = Err ZeroDivisionError /\
  send1 Translated (VDbl f) "//" (VDbl g) =
    Ok (VDbl (if u =? 0 then S754_nan else S754_infinity (xorb (negative f) (negative g)))).
Proof.
  intros f g u Bf Bg Uf Ug. destruct (units_zero _ Bg Ug) as [s ->]. split; [reflexivity|].
  destruct f as [sf|[]| |sf mf ef]; try discriminate Uf.
  - cbn [units] in Uf. injection Uf as <-. reflexivity.
  - destruct Bf as (_ & H & _). destruct (finite_units _ _ _ _ (proj1 H) Uf) as (_ & N & _). destruct (Z.eqb_spec u 0); [contradiction|]. reflexivity.
Qed.
Print Assumptions C75_divide_by_zero.

(** Remainder: exact, of the division rounded towards zero, with the sign of the receiver. *)
Theorem C75_remainder : forall m f g u v, binary64 f -> binary64 g -> units f = Some u -> units g = Some v -> v <> 0 ->
  exists h k r, send1 m (VDbl f) "%" (VDbl g) = Ok (VDbl h) /\ binary64 h /\ units h = Some r /\
    u = k * v + r /\ Z.abs r < Z.abs v /\ negative h = negative f.
Proof.
  intros m f g u v Bf Bg Uf Ug Nv. destruct (fmod_exact f g u v Bf Bg Uf Ug Nv) as (h & E & B & U & S).
  exists h, (Z.quot u v), (Z.rem u v). split; [change (send1 m (VDbl f) "%" (VDbl g)) with (x <- py_fmod f g ;; Ok (VDbl x)); rewrite E; reflexivity|].
  split; [exact B|]. split; [exact U|]. split; [rewrite Z.mul_comm; apply Z.quot_rem; exact Nv|]. split; [apply Z.rem_bound_abs; exact Nv|exact S].
Qed.
Print Assumptions C75_remainder.
Theorem C75_remainder_by_zero : forall m f g u, binary64 f -> binary64 g -> units f = Some u -> units g = Some 0 ->
  send1 m (VDbl f) "%" (VDbl g) = Err ValueError.
Proof.
  intros m f g u Bf Bg Uf Ug. destruct (units_zero _ Bg Ug) as [s ->]. destruct f as [sf|[]| |sf mf ef]; try discriminate Uf; reflexivity.
Qed.
Print Assumptions C75_remainder_by_zero.

(** Square root of a double: the nearest double; zeros are answered as they are, and below zero the
    primitive fails. *)
Theorem C75_sqrt : forall f u, binary64 f -> units f = Some u ->
  (0 < u -> exists h, d_sqrt (VDbl f) = Ok (VDbl h) /\ rounds_to_root u h) /\
  (u = 0 -> d_sqrt (VDbl f) = Ok (VDbl f)) /\
  (u < 0 -> d_sqrt (VDbl f) = Err ValueError).
Proof.
  intros f u B U. destruct f as [s|[]| |s k e]; try discriminate U.
  - cbn [units] in U. injection U as <-. split; [lia|]. split; [|lia]. destruct s; reflexivity.
  - pose proof B as (_ & H & _). destruct (finite_units _ _ _ _ (proj1 H) U) as (A & N & S). destruct s.
    + apply Z.ltb_lt in S. split; [lia|]. split; [lia|]. reflexivity.
    + apply Z.ltb_ge in S. split; [|split; lia]. intros _. eexists. split; [reflexivity|]. rewrite Z.abs_eq in A by lia. rewrite A. apply rounds_sqrt. exact B.
Qed.
Print Assumptions C75_sqrt.

(** sqrt of an Integer: the root of its asDouble is rounded once; it is answered as an Integer if
    the rounded root is whole, and as a Double otherwise.  Up to 2^53 asDouble is exact. *)
Theorem C75_int_sqrt : forall m z g, valid m (VInt z) -> 0 < z -> send0 m (VInt z) "asDouble" = Ok (VDbl g) ->
  exists u h v, units g = Some u /\ rounds_to_root u h /\ units h = Some v /\
    (forall t, v = t * unit_scale -> send0 m (VInt z) "sqrt" = Ok (VInt t)) /\
    ((forall t, v <> t * unit_scale) -> send0 m (VInt z) "sqrt" = Ok (VDbl h)).
Proof. exact sqrt_int. Qed.
Print Assumptions C75_int_sqrt.

(** Integers of any size: asDouble rounds once; from the limit on it fails. *)
Theorem C75_as_double : forall m a x, valid m a -> int_val a = Some x ->
  (Z.abs x * unit_scale < overflow_limit -> exists h, send0 m a "asDouble" = Ok (VDbl h) /\ rounds_to (x * unit_scale) 1 h) /\
  (overflow_limit <= Z.abs x * unit_scale -> send0 m a "asDouble" = Err OverflowError).
Proof.
  intros m a x V I. destruct (as_double_ok m a x V I) as [A B]. split; [|exact B]. intros L. eexists. split; [apply A; exact L|apply rounds_int].
Qed.
Print Assumptions C75_as_double.
(** The quotient // of two integers one of which is beyond a word is rounded once, as exactly
    [x / y], ... *)
Theorem C75_big_quotient : forall m a b x y, int_val a = Some x -> int_val b = Some y -> ~ (is_word a /\ is_word b) -> y <> 0 ->
  (Z.abs x * unit_scale < overflow_limit * Z.abs y ->
     exists h, send1 m a "//" b = Ok (VDbl h) /\ rounds_to (Z.sgn y * x * unit_scale) (Z.abs y) h) /\
  (overflow_limit * Z.abs y <= Z.abs x * unit_scale -> send1 m a "//" b = Err OverflowError).
Proof.
  intros m a b x y Ia Ib Big Ny. assert (E : send1 m a "//" b = (q <- big_truediv x y ;; Ok (VDbl q))).
  { destruct a; try discriminate Ia; injection Ia as ->; destruct b; try discriminate Ib; injection Ib as ->; try reflexivity.
    exfalso. apply Big. split; eexists; reflexivity. }
  rewrite E. destruct (truediv_ok x y Ny) as [A B]. split.
  - intros L. destruct (A L) as (h & Eh & R). exists h. rewrite Eh. split; [reflexivity|exact R].
  - intros L. rewrite (B L). reflexivity.
Qed.
Print Assumptions C75_big_quotient.
(** ... and so is that of two integers up to 2^53, ... *)
Theorem C75_quotient_partial : forall m x y, Z.abs x <= 2 ^ 53 -> Z.abs y <= 2 ^ 53 -> y <> 0 ->
  exists h, send1 m (VInt x) "//" (VInt y) = Ok (VDbl h) /\ rounds_to (Z.sgn y * x * unit_scale) (Z.abs y) h.
Proof. exact fdiv_ints. Qed.
Print Assumptions C75_quotient_partial.
(** ... while // of any two Integers is // of their asDouble, ... *)
Theorem C75_quotient_words : forall m x y f g,
  send0 m (VInt x) "asDouble" = Ok (VDbl f) -> send0 m (VInt y) "asDouble" = Ok (VDbl g) ->
  send1 m (VInt x) "//" (VInt y) = send1 m (VDbl f) "//" (VDbl g).
Proof. exact quotient_words. Qed.
Print Assumptions C75_quotient_words.
(** ... so between 2^53 and the word size the operands are rounded before the quotient is: dividing
    2^53 + 1 by 3 leaves nothing over, yet the answer is half a unit off. *)
Theorem C75_quotient_refuted : forall m, exists x h, valid m (VInt x) /\ x = 3002399751580331 * 3 /\
  send1 m (VInt x) "//" (VInt 3) = Ok (VDbl h) /\ units h = Some (6004799503160661 * 2 ^ 1073) /\
  ~ rounds_to (Z.sgn 3 * x * unit_scale) (Z.abs 3) h.
Proof.
  intros m. exists (3002399751580331 * 3), (S754_finite false 6004799503160661 (-1)).
  split; [destruct m; cbn [valid]; [lia|exact I]|]. split; [reflexivity|]. split; [destruct m; vm_compute; reflexivity|].
  split; [cbn [units]; f_equal|]. intros R.
  destruct (int_exact 3002399751580331 ltac:(lia)) as [B U].
  pose proof (rounds_exact _ _ _ _ _ (eq_refl : 0 < Z.abs 3) R B U) as X. specialize (X ltac:(change (Z.sgn 3) with 1; change (Z.abs 3) with 3; ring)).
  vm_compute in X. discriminate X.
Qed.
Print Assumptions C75_quotient_refuted.

(** [rounds_to] leaves one choice, except for the sign of a zero. *)
Theorem C75_unique : forall p q f g, 0 < q -> p <> 0 -> rounds_to p q f -> rounds_to p q g -> f = g.
Proof. exact rounds_unique. Qed.
Print Assumptions C75_unique.
Theorem C75_root_unique : forall p f g, rounds_to_root p f -> rounds_to_root p g -> units f = units g.
Proof. exact root_unique. Qed.
Print Assumptions C75_root_unique.
(** If the exact result is a double, it is the answer. *)
Theorem C75_exact : forall p q f g w, 0 < q -> rounds_to p q f -> binary64 g -> units g = Some w -> w * q = p ->
  units f = Some w.
Proof. exact rounds_exact. Qed.
Print Assumptions C75_exact.
(** Rounding keeps the order, ... *)
Theorem C75_monotone : forall p p' q f g, 0 < q -> p <= p' -> rounds_to p q f -> rounds_to p' q g ->
  below (exactly f) (exactly g) \/ same (exactly f) (exactly g).
Proof. exact rounds_monotone. Qed.
Print Assumptions C75_monotone.
(** ... so adding to a larger double never answers less, ... *)
Theorem C75_monotone_add : forall m f f' g u u' v h h', binary64 f -> binary64 f' -> binary64 g ->
  units f = Some u -> units f' = Some u' -> units g = Some v -> u <= u' ->
  send1 m (VDbl f) "+" (VDbl g) = Ok (VDbl h) -> send1 m (VDbl f') "+" (VDbl g) = Ok (VDbl h') ->
  send1 m (VDbl h) "<=" (VDbl h') = Ok VTrue.
Proof.
  intros m f f' g u u' v h h' Bf Bf' Bg Uf Uf' Ug L E E'.
  destruct (C75_add m f g u v Bf Bg Uf Ug) as (k & Ek & R & _). destruct (C75_add m f' g u' v Bf' Bg Uf' Ug) as (k' & Ek' & R' & _).
  assert (k = h) by congruence. assert (k' = h') by congruence. subst k k'.
  destruct (dbl_order m h h' (proj1 R) (proj1 R')) as (_ & [[T _]|[_ T]] & _); [exact T|]. exfalso. apply T. exact (rounds_monotone _ _ 1 _ _ (eq_refl : 0 < 1) (proj1 (Z.add_le_mono_r u u' v) L) R R').
Qed.
Print Assumptions C75_monotone_add.
(** ... nor multiplying one by a double that is not negative. *)
Theorem C75_monotone_multiply : forall m f f' g u u' v h h', binary64 f -> binary64 f' -> binary64 g ->
  units f = Some u -> units f' = Some u' -> units g = Some v -> u <= u' -> 0 <= v ->
  send1 m (VDbl f) "*" (VDbl g) = Ok (VDbl h) -> send1 m (VDbl f') "*" (VDbl g) = Ok (VDbl h') ->
  send1 m (VDbl h) "<=" (VDbl h') = Ok VTrue.
Proof.
  intros m f f' g u u' v h h' Bf Bf' Bg Uf Uf' Ug L Pv E E'.
  destruct (C75_multiply m f g u v Bf Bg Uf Ug) as (k & Ek & R & _). destruct (C75_multiply m f' g u' v Bf' Bg Uf' Ug) as (k' & Ek' & R' & _).
  assert (k = h) by congruence. assert (k' = h') by congruence. subst k k'.
  destruct (dbl_order m h h' (proj1 R) (proj1 R')) as (_ & [[T _]|[_ T]] & _); [exact T|]. exfalso. apply T.
  exact (rounds_monotone _ _ unit_scale _ _ scale_pos (Z.mul_le_mono_nonneg_r _ _ _ Pv L) R R').
Qed.
Print Assumptions C75_monotone_multiply.
(** + and * commute, also with infinities and NaN. *)
Theorem C75_commutes : forall m f g,
  send1 m (VDbl f) "+" (VDbl g) = send1 m (VDbl g) "+" (VDbl f) /\
  send1 m (VDbl f) "*" (VDbl g) = send1 m (VDbl g) "*" (VDbl f).
Proof.
  intros m f g. change (Ok (VDbl (fadd f g)) = Ok (VDbl (fadd g f)) /\ Ok (VDbl (fmul f g)) = Ok (VDbl (fmul g f))).
  rewrite add_comm, mul_comm. split; reflexivity.
Qed.
Print Assumptions C75_commutes.

(** NaN and infinities. *)
Theorem C75_nan : forall m f sel, In sel ["+"; "-"; "*"; "%"]%string ->
  send1 m (VDbl S754_nan) sel (VDbl f) = Ok (VDbl S754_nan) /\ send1 m (VDbl f) sel (VDbl S754_nan) = Ok (VDbl S754_nan).
Proof.
  intros m f sel I. cbn [In] in I. decompose [or] I; subst; try contradiction; destruct f as [|[]| |]; split; reflexivity.
Qed.
Print Assumptions C75_nan.
Theorem C75_infinite : forall m s g v, binary64 g -> units g = Some v ->
  let inf b := VDbl (S754_infinity b) in
  send1 m (inf s) "+" (VDbl g) = Ok (inf s) /\ send1 m (VDbl g) "+" (inf s) = Ok (inf s) /\
  send1 m (inf s) "-" (VDbl g) = Ok (inf s) /\ send1 m (VDbl g) "-" (inf s) = Ok (inf (negb s)) /\
  send1 m (inf s) "*" (VDbl g) = Ok (if v =? 0 then VDbl S754_nan else inf (xorb s (negative g))) /\
  (v <> 0 -> send1 m (inf s) "//" (VDbl g) = Ok (inf (xorb s (negative g)))) /\
  send1 m (VDbl g) "//" (inf s) = Ok (VDbl (S754_zero (xorb (negative g) s))) /\
  send1 m (inf s) "%" (VDbl g) = Err ValueError /\ send1 m (VDbl g) "%" (inf s) = Ok (VDbl g).
Proof.
  intros m s g v B U inf. destruct g as [sg|[]| |sg k e]; try discriminate U.
  - cbn [units] in U. injection U as <-. repeat split; try (destruct m; reflexivity). intros N. congruence.
  - destruct B as (_ & H & _). destruct (finite_units _ _ _ _ (proj1 H) U) as (_ & N & _). destruct (Z.eqb_spec v 0); [contradiction|].
    repeat split; destruct m; reflexivity.
Qed.
Print Assumptions C75_infinite.
Theorem C75_two_infinities : forall m s t,
  let inf b := VDbl (S754_infinity b) in
  send1 m (inf s) "+" (inf t) = Ok (if Bool.eqb s t then inf s else VDbl S754_nan) /\
  send1 m (inf s) "-" (inf t) = Ok (if Bool.eqb s t then VDbl S754_nan else inf s) /\
  send1 m (inf s) "*" (inf t) = Ok (inf (xorb s t)) /\
  send1 m (inf s) "//" (inf t) = Ok (VDbl S754_nan) /\
  send1 m (inf s) "%" (inf t) = Err ValueError /\
  d_sqrt d_positive_infinity = Ok d_positive_infinity /\ d_positive_infinity = inf false.
Proof. intros m s t inf. destruct m, s, t; repeat split. Qed.
Print Assumptions C75_two_infinities.

(** 0.1 + 0.2 is 0.30000000000000004, 1 // 3 and the root of 3 are the nearest doubles, and the
    product of a tiny negative double keeps its sign. *)
Example C75_nonvacuous :
  let tenth := S754_finite false 7205759403792794 (-56) in
  let fifth := S754_finite false 7205759403792794 (-55) in
  let one := S754_finite false (2 ^ 52) (-52) in
  let three := S754_finite false 6755399441055744 (-51) in
  let tiny := S754_finite true 1 (-1074) in
  let huge := S754_finite false (2 ^ 53 - 1) 971 in
  binary64 tenth /\ binary64 fifth /\ binary64 one /\ binary64 three /\ binary64 tiny /\ binary64 huge /\
  send1 Translated (VDbl tenth) "+" (VDbl fifth) = Ok (VDbl (S754_finite false 5404319552844596 (-54))) /\
  send1 Hosted (VDbl one) "//" (VDbl three) = Ok (VDbl (S754_finite false 6004799503160661 (-54))) /\
  send1 Hosted (VDbl tiny) "*" (VDbl tenth) = Ok (VDbl (S754_zero true)) /\
  send1 Hosted (VDbl huge) "+" (VDbl huge) = Ok (VDbl (S754_infinity false)) /\
  send1 Hosted (VDbl three) "%" (VDbl fifth) = Ok (VDbl (S754_finite false 7205759403792788 (-55))) /\
  d_sqrt (VDbl three) = Ok (VDbl (S754_finite false 7800463371553962 (-52))) /\
  send1 Translated (VBig (2 ^ 70)) "//" (VInt 3) = Ok (VDbl (S754_finite false 6004799503160661 16)) /\
  send0 Hosted (VInt (2 ^ 1024)) "asDouble" = Err OverflowError /\
  send0 Hosted (VInt (2 ^ 1023)) "asDouble" = Ok (VDbl (S754_finite false (2 ^ 52) 971)) /\
  send0 Translated (VInt (2 ^ 62 + 1)) "asDouble" = Ok (VDbl (S754_finite false (2 ^ 52) 10)) /\
  send0 Translated (VInt (2 ^ 62 + 1)) "sqrt" = Ok (VInt (2 ^ 31)) /\
  send0 Translated (VInt 3) "sqrt" = Ok (VDbl (S754_finite false 7800463371553962 (-52))).
Proof. vm_compute. repeat split; try discriminate; try (left; discriminate); right; reflexivity. Qed.
