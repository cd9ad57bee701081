(** Theorems about doubles.  [exactly f] (DblSpec) is the exact value of a double. *)
From Coq Require Import ZArith Bool String List Lia Floats.SpecFloat.
From Verif Require Import Base NumModel NumSpec DblSpec DblProofs DblArith DblSqrt.
Import ListNotations.
Open Scope Z_scope.

(** * C55 *)
(** Comparisons of doubles compare the exact values; NaN is unequal to everything and
    neither below nor above anything. *)
Theorem C55_comparisons : forall m f g, binary64 f -> binary64 g ->
  let a := exactly f in let b := exactly g in
  answers_bool (send1 m (VDbl f) "<" (VDbl g)) (below a b)
  /\ answers_bool (send1 m (VDbl f) "<=" (VDbl g)) (below a b \/ same a b)
  /\ answers_bool (send1 m (VDbl f) ">" (VDbl g)) (below b a)
  /\ answers_bool (send1 m (VDbl f) ">=" (VDbl g)) (below b a \/ same a b)
  /\ answers_bool (send1 m (VDbl f) "=" (VDbl g)) (same a b)
  /\ answers_bool (send1 m (VDbl f) "<>" (VDbl g)) (~ same a b)
  /\ answers_bool (send1 m (VDbl f) "~=" (VDbl g)) (~ same a b).
Proof. exact dbl_order. Qed.
Print Assumptions C55_comparisons.

(** = is transitive among doubles. *)
Theorem C08_equals_transitive_doubles : forall m f g h, binary64 f -> binary64 g -> binary64 h ->
  send1 m (VDbl f) "=" (VDbl g) = Ok VTrue -> send1 m (VDbl g) "=" (VDbl h) = Ok VTrue ->
  send1 m (VDbl f) "=" (VDbl h) = Ok VTrue.
Proof.
  intros m f g h Bf Bg Bh E1 E2. destruct (dbl_order m f g Bf Bg) as (_ & _ & _ & _ & A & _).
  destruct (dbl_order m g h Bg Bh) as (_ & _ & _ & _ & B & _). destruct (dbl_order m f h Bf Bh) as (_ & _ & _ & _ & C & _).
  destruct A as [[_ [A1 A2]]|[A _]]; [|congruence]. destruct B as [[_ [B1 B2]]|[B _]]; [|congruence].
  destruct C as [[C _]|[_ C]]; [exact C|]. exfalso. apply C. split; [congruence|exact A2].
Qed.
Print Assumptions C08_equals_transitive_doubles.

(** min: and max: of doubles: if the receiver is below the argument, min: answers the receiver and
    max: the argument; otherwise, so also with a NaN among them or two equal numbers, min: answers
    the argument and max: the receiver. *)
Theorem C55_min_max : forall m f g, binary64 f -> binary64 g ->
  let a := exactly f in let b := exactly g in
  (below a b -> send1 m (VDbl f) "min:" (VDbl g) = Ok (VDbl f) /\ send1 m (VDbl f) "max:" (VDbl g) = Ok (VDbl g)) /\
  (~ below a b -> send1 m (VDbl f) "min:" (VDbl g) = Ok (VDbl g) /\ send1 m (VDbl f) "max:" (VDbl g) = Ok (VDbl f)).
Proof. exact dbl_min_max. Qed.
Print Assumptions C55_min_max.
(** Double and Integer: the Integer is compared as the double "asDouble" answers for it, but the
    answer is the operand itself, an Integer as an Integer. *)
Theorem C55_min_max_mixed : forall m f v x g, int_val v = Some x -> binary64 f -> binary64 g ->
  send0 m v "asDouble" = Ok (VDbl g) ->
  let a := exactly f in let b := exactly g in
  (below a b -> send1 m (VDbl f) "min:" v = Ok (VDbl f) /\ send1 m (VDbl f) "max:" v = Ok v) /\
  (~ below a b -> send1 m (VDbl f) "min:" v = Ok v /\ send1 m (VDbl f) "max:" v = Ok (VDbl f)) /\
  (below b a -> send1 m v "min:" (VDbl f) = Ok v /\ send1 m v "max:" (VDbl f) = Ok (VDbl f)) /\
  (~ below b a -> send1 m v "min:" (VDbl f) = Ok (VDbl f) /\ send1 m v "max:" (VDbl f) = Ok v).
Proof. exact dbl_min_max_mixed. Qed.
Print Assumptions C55_min_max_mixed.

(** asInteger cuts the fraction off; in the translated VM a result outside the word range is
    an unchecked machine conversion. *)
Theorem C55_as_integer_partial : forall m f u, binary64 f -> units f = Some u ->
  exists z, cut_off u z /\
    (word_sized m z -> send0 m (VDbl f) "asInteger" = Ok (VInt z)) /\
    (~ word_sized m z -> send0 m (VDbl f) "asInteger" = Err UndefinedBehaviour).
Proof. exact as_integer_ok. Qed.
Print Assumptions C55_as_integer_partial.
(** [cut_off] leaves one choice. *)
Theorem C55_cut_off_unique : forall u z z', cut_off u z -> cut_off u z' -> z = z'.
Proof.
  unfold cut_off. assert (S : 0 < unit_scale) by (apply Z.pow_pos_nonneg; lia).
  intros u z z' [A B] [A' B']. destruct (Z.le_ge_cases 0 u) as [L|L].
  - specialize (A L). specialize (A' L). nia.
  - specialize (B L). specialize (B' L). nia.
Qed.
Print Assumptions C55_cut_off_unique.
Theorem C55_as_integer_refuted : exists f, binary64 f /\ units f <> None /\
  fails (send0 Translated (VDbl f) "asInteger").
Proof.
  exists (S754_finite false (2 ^ 52) 11). split; [cbn; lia|]. split; [discriminate|].
  intros v. vm_compute. discriminate.
Qed.
Print Assumptions C55_as_integer_refuted.

(** round answers the nearest integer, halves away from zero.  Missing: the two doubles next to
    one half, +-0.49999999999999994 (refuted below), and results outside the word range. *)
Theorem C55_round_partial : forall m f u, binary64 f -> units f = Some u ->
  Z.abs u <> (2 ^ 53 - 1) * 2 ^ 1020 ->
  exists z, nearest_away u z /\
    (word_sized m z -> send0 m (VDbl f) "round" = Ok (VInt z)) /\
    (~ word_sized m z -> send0 m (VDbl f) "round" = Err UndefinedBehaviour).
Proof. exact send_round. Qed.
Print Assumptions C55_round_partial.
(** [nearest_away] leaves one choice. *)
Theorem C55_nearest_unique : forall u z z', nearest_away u z -> nearest_away u z' -> z = z'.
Proof.
  unfold nearest_away. intros u z z' [A A'] [B B']. pose proof scale_pos as S.
  destruct (Z.lt_trichotomy z z') as [L|[L|L]]; auto; exfalso.
  - assert (z' = z + 1) by nia. subst z'. assert (2 * u = (2 * z + 1) * unit_scale) by nia.
    specialize (A' ltac:(nia)). specialize (B' ltac:(nia)). nia.
  - assert (z = z' + 1) by nia. subst z. assert (2 * u = (2 * z' + 1) * unit_scale) by nia.
    specialize (A' ltac:(nia)). specialize (B' ltac:(nia)). nia.
Qed.
Print Assumptions C55_nearest_unique.
(** The largest double below one half, 0.49999999999999994, rounds to 1. *)
Theorem C55_round_refuted : forall m, exists f u, binary64 f /\ units f = Some u /\
  send0 m (VDbl f) "round" = Ok (VInt 1) /\ nearest_away u 0 /\ ~ nearest_away u 1.
Proof.
  intros m. exists (S754_finite false (2 ^ 53 - 1) (-54)). eexists.
  split; [cbn; lia|]. split; [reflexivity|]. split; [destruct m; vm_compute; reflexivity|].
  split.
  - unfold nearest_away. split; vm_compute; congruence.
  - unfold nearest_away. intros [A _]. apply A. vm_compute. reflexivity.
Qed.
Print Assumptions C55_round_refuted.

(** Below 2^52, sqrt answers the Integer root of a square, and otherwise a Double with no
    other double between it and the root. *)
Theorem C55_sqrt_partial : forall m z, 0 <= z < 2 ^ 52 ->
  (forall t, 0 <= t -> t * t = z -> send0 m (VInt z) "sqrt" = Ok (VInt t)) /\
  ((forall t, t * t <> z) ->
   exists f, send0 m (VInt z) "sqrt" = Ok (VDbl f) /\ next_to_root f z).
Proof. exact send_sqrt. Qed.
Print Assumptions C55_sqrt_partial.
(** The root of a square is exact for every root a double can hold; so for every square that is
    an Integer of the translated VM. *)
Theorem C55_sqrt_square : forall m t, 0 <= t <= 2 ^ 53 ->
  send0 m (VInt (t * t)) "sqrt" = Ok (VInt t).
Proof. exact send_sqrt_square. Qed.
Print Assumptions C55_sqrt_square.
Theorem C55_sqrt_translated : forall z t, valid Translated (VInt z) -> 0 <= t -> t * t = z ->
  send0 Translated (VInt z) "sqrt" = Ok (VInt t).
Proof. intros z t V T <-. apply send_sqrt_square. cbn in V. nia. Qed.
Print Assumptions C55_sqrt_translated.
(** Run by Python, the next square already has no Integer root. *)
Theorem C55_sqrt_square_refuted : exists t, t = 2 ^ 53 + 1 /\
  send0 Hosted (VInt (t * t)) "sqrt" = Ok (VInt (2 ^ 53)).
Proof. exists (2 ^ 53 + 1). split; [reflexivity|vm_compute; reflexivity]. Qed.
Print Assumptions C55_sqrt_square_refuted.
(** The bound is needed: 2^52 + 1 is no square, but sqrt answers the Integer 2^26. *)
Theorem C55_sqrt_refuted : forall m, exists z t, valid m (VInt z) /\ z = 2 ^ 52 + 1 /\
  send0 m (VInt z) "sqrt" = Ok (VInt t) /\ t * t <> z.
Proof.
  intros m. exists (2 ^ 52 + 1), (2 ^ 26).
  split; [destruct m; cbn; lia|]. split; [reflexivity|]. split; [destruct m; vm_compute; reflexivity|]. lia.
Qed.
Print Assumptions C55_sqrt_refuted.

Example C55_nonvacuous_min_max :
  let half := S754_finite false (2 ^ 52) (-53) in let two := S754_finite false (2 ^ 52) (-51) in
  binary64 half /\ binary64 two /\ below (exactly half) (exactly two) /\
  send0 Translated (VInt 2) "asDouble" = Ok (VDbl two) /\
  send1 Translated (VDbl half) "max:" (VInt 2) = Ok (VInt 2) /\
  send1 Translated (VInt 2) "min:" (VDbl half) = Ok (VDbl half) /\
  ~ below (exactly S754_nan) (exactly half) /\
  send1 Translated (VDbl S754_nan) "min:" (VDbl half) = Ok (VDbl half) /\
  send1 Translated (VDbl S754_nan) "max:" (VDbl half) = Ok (VDbl S754_nan).
Proof.
  cbv zeta. split; [cbn; lia|]. split; [cbn; lia|].
  split; [vm_compute; reflexivity|]. do 3 (split; [vm_compute; reflexivity|]).
  split; [cbn; tauto|]. split; vm_compute; reflexivity.
Qed.
Example C55_nonvacuous :
  let two_and_a_half := S754_finite true (5 * 2 ^ 50) (-51) in
  binary64 two_and_a_half /\ units two_and_a_half = Some (-5 * 2 ^ 1073) /\
  send0 Translated (VDbl two_and_a_half) "asInteger" = Ok (VInt (-2)) /\
  send0 Translated (VDbl two_and_a_half) "round" = Ok (VInt (-3)) /\
  send1 Translated (VDbl two_and_a_half) "<" (VDbl (S754_zero true)) = Ok VTrue /\
  send1 Translated (VDbl S754_nan) "=" (VDbl S754_nan) = Ok VFalse /\
  send1 Translated (VDbl S754_nan) ">" (VDbl two_and_a_half) = Ok VFalse /\
  Z.abs (-5 * 2 ^ 1073) <> (2 ^ 53 - 1) * 2 ^ 1020 /\ word_sized Translated (-3) /\
  send0 Translated (VInt 144) "sqrt" = Ok (VInt 12) /\
  send0 Translated (VInt (3037000499 * 3037000499)) "sqrt" = Ok (VInt 3037000499) /\
  (forall t, t * t <> 2) /\
  send0 Translated (VInt 2) "sqrt" = Ok (VDbl (S754_finite false 6369051672525773 (-52))).
Proof.
  cbv zeta. split; [cbn; lia|]. do 6 (split; [vm_compute; reflexivity|]).
  split; [vm_compute; discriminate|]. split; [cbn; lia|]. split; [vm_compute; reflexivity|]. split; [vm_compute; reflexivity|].
  split; [intros t E; assert (-2 < t < 2) as X by nia; assert (t = -1 \/ t = 0 \/ t = 1) as [-> | [-> | ->]] by lia; lia|vm_compute; reflexivity].
Qed.
