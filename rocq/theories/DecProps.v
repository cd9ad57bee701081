(** Theorems about doubles written in decimal.  [decimal s n k] (DecSpec) says that the text [s] writes
    [n / 10^k]; [rounds_to p q f] (FltSpec) that [f] is the double nearest to [p / q] units of 2^-1074. *)
From Coq Require Import ZArith Bool String Ascii List Lia Floats.SpecFloat.
From Verif Require Import Base LexModel LexSpec NumModel NumSpec NtxModel NtxSpec DblSpec DblProofs DblRound DblArith FltSpec FltOps FltRoot FltProps DecModel DecSpec DecProofs.
Import ListNotations.
Open Scope Z_scope.
Open Scope list_scope.

(** * C76 *)
(** Every Double token of the lexer writes a decimal fraction. *)
Theorem C76_tokens : forall t s, spells (Double, t) s -> exists n k, decimal t n k.
Proof.
  intros t s H. remember (Double, t) as tk eqn:E.
  destruct H as [c k H| |c k H| | | | | | | |d e [Nd Fd] [Ne Fe]| ]; try discriminate E.
  1,2: exfalso; injection E as -> _; cbn in H; repeat (destruct H as [H|H]; [discriminate H|]); exact H.
  injection E as <-.
  destruct (digits_numeral (d ++ e)) as [n N]; [destruct d; [congruence|discriminate]|apply Forall_app; auto|].
  exists n, (List.length e), d, e. auto.
Qed.
Print Assumptions C76_tokens.
(** A literal denotes the double nearest to the number it writes, ... *)
Theorem C76_literal : forall s n k, decimal s n k ->
  exists h, literal_double false s = Ok (VDbl h) /\ rounds_to (n * unit_scale) (10 ^ Z.of_nat k) h /\ (n = 0 -> h = S754_zero false).
Proof. exact literal_positive. Qed.
Print Assumptions C76_literal.
(** ... with a minus sign its negative, but never the negative zero: also not if the number is so
    small that it is rounded to zero. *)
Theorem C76_negative_literal_partial : forall s n k h, decimal s n k -> literal_double true s = Ok (VDbl h) ->
  rounds_to (- n * unit_scale) (10 ^ Z.of_nat k) h \/
  h = S754_zero false /\ rounds_to (n * unit_scale) (10 ^ Z.of_nat k) h.
Proof.
  intros s n k h D H. destruct (literal_positive s n k D) as (f & F & R & _). rewrite (literal_negative s n k f D F) in H. injection H as <-.
  pose proof (rounds_opp _ _ _ (ten_pos k) R) as R'. rewrite <- Z.mul_opp_l in R'.
  destruct f as [sf| | |]; [|left; exact R'..]. right. split; [reflexivity|].
  destruct sf; [|exact R]. destruct (unsigned_decimal s n k D) as (_ & P & _). destruct (Z.eq_dec n 0) as [->|N]; [exact (rounds_zero _ false (ten_pos k))|].
  exfalso. destruct R as (_ & S & _). pose proof scale_pos as Sc. assert (X : n * unit_scale <> 0) by nia. specialize (S X). cbn [negative] in S.
  destruct (Z.ltb_spec (n * unit_scale) 0); [nia|discriminate S].
Qed.
Print Assumptions C76_negative_literal_partial.
Theorem C76_negative_zero_refuted : exists s, decimal s 0 1 /\
  literal_double true s = Ok (VDbl (S754_zero false)) /\ double_from_string ("-"%char :: s) = Ok (VDbl (S754_zero true)) /\
  send1 Translated (VInt 1) "//" (VDbl (S754_zero false)) <> send1 Translated (VInt 1) "//" (VDbl (S754_zero true)).
Proof.
  exists ["0"; "."; "0"]%char. split.
  { exists ["0"%char], ["0"%char]. repeat (split; [try reflexivity; discriminate|]). split; [|reflexivity].
    apply (more_digits ["0"%char] 0 "0"%char 0); [constructor|]; cbn; tauto. }
  split; [vm_compute; reflexivity|]. split; [vm_compute; reflexivity|]. vm_compute. discriminate.
Qed.
Print Assumptions C76_negative_zero_refuted.
(** Double fromString: reads the same texts as the parser, signs included, and negative zero. *)
Theorem C76_from_string : forall s n k, decimal s n k -> exists h, literal_double false s = Ok (VDbl h) /\
  double_from_string s = Ok (VDbl h) /\ double_from_string ("+"%char :: s) = Ok (VDbl h) /\
  exists h', double_from_string ("-"%char :: s) = Ok (VDbl h') /\ rounds_to (- n * unit_scale) (10 ^ Z.of_nat k) h' /\
    negative h' = true.
Proof.
  intros s n k D. destruct (literal_positive s n k D) as (f & F & R & Z0). destruct (from_string_signed s n k f D F) as (A & B & C).
  exists f. repeat (split; [assumption|]). exists (SFopp f). split; [exact C|]. split; [rewrite Z.mul_opp_l; exact (rounds_opp _ _ _ (ten_pos k) R)|].
  destruct (unsigned_decimal s n k D) as (_ & P & _). destruct (Z.eq_dec n 0) as [->|N]; [rewrite (Z0 eq_refl); reflexivity|].
  pose proof scale_pos as Sc. destruct (rounds_opp _ _ _ (ten_pos k) R) as (_ & S & _). rewrite S by nia. apply Z.ltb_lt. nia.
Qed.
Print Assumptions C76_from_string.
(** So it reads digits without a point: the double nearest to the integer. *)
Theorem C76_from_string_whole : forall s n, numeral s n ->
  exists h, double_from_string s = Ok (VDbl h) /\ rounds_to (n * unit_scale) 1 h.
Proof.
  intros s n H. destruct (unsigned_whole s n H) as [E P]. exists (decimal_double n 0). unfold double_from_string. rewrite E. split; [reflexivity|].
  exact (proj1 (rounds_decimal n 0 P)).
Qed.
Print Assumptions C76_from_string_whole.
(** Two ways to write the same number denote the same double, with and without a sign, ... *)
Theorem C76_same_number : forall s n k s' n' k', decimal s n k -> decimal s' n' k' ->
  n * 10 ^ Z.of_nat k' = n' * 10 ^ Z.of_nat k ->
  forall neg, literal_double neg s = literal_double neg s'.
Proof.
  intros s n k s' n' k' D D' E. destruct (literal_positive s n k D) as (f & F & R & Z0). destruct (literal_positive s' n' k' D') as (g & G & R' & Z0').
  assert (X : f = g).
  { pose proof (ten_pos k) as T. pose proof (ten_pos k') as T'. pose proof scale_pos as Sc. destruct (Z.eq_dec n 0) as [->|N].
    - rewrite (Z0 eq_refl), (Z0' ltac:(nia)). reflexivity.
    - destruct (common_scale _ _ _ _ _ _ R R') as (Q & A & B). rewrite <- E in B.
      assert (Np : n * 10 ^ Z.of_nat k' * unit_scale <> 0) by nia. exact (rounds_unique _ _ _ _ Q Np A B). }
  subst g. intros []; [rewrite (literal_negative s n k f D F), (literal_negative s' n' k' f D' G); reflexivity|congruence].
Qed.
Print Assumptions C76_same_number.
(** ... and a larger number is never read as a smaller double. *)
Theorem C76_monotone : forall s n k s' n' k' h h', decimal s n k -> decimal s' n' k' ->
  n * 10 ^ Z.of_nat k' <= n' * 10 ^ Z.of_nat k ->
  literal_double false s = Ok (VDbl h) -> literal_double false s' = Ok (VDbl h') ->
  below (exactly h) (exactly h') \/ same (exactly h) (exactly h').
Proof.
  intros s n k s' n' k' h h' D D' E H H'. destruct (literal_positive s n k D) as (f & F & R & _). destruct (literal_positive s' n' k' D') as (g & G & R' & _).
  rewrite F in H. injection H as <-. rewrite G in H'. injection H' as <-. destruct (common_scale _ _ _ _ _ _ R R') as (Q & A & B).
  pose proof scale_pos as Sc. assert (L : n * 10 ^ Z.of_nat k' * unit_scale <= n' * 10 ^ Z.of_nat k * unit_scale) by (apply Z.mul_le_mono_nonneg_r; lia).
  exact (rounds_monotone _ _ _ _ _ Q L A B).
Qed.
Print Assumptions C76_monotone.
(** A whole number written with a point is its asDouble. *)
Theorem C76_whole : forall m s n k a z f, decimal s n k -> valid m a -> int_val a = Some z -> n = z * 10 ^ Z.of_nat k ->
  send0 m a "asDouble" = Ok (VDbl f) -> literal_double false s = Ok (VDbl f).
Proof.
  intros m s n k a z f D V I E H. destruct (literal_positive s n k D) as (g & G & R & Z0). rewrite G. do 2 f_equal.
  pose proof (ten_pos k) as T. pose proof scale_pos as Sc. destruct (C75_as_double m a z V I) as [A B].
  destruct (Z.lt_ge_cases (Z.abs z * unit_scale) overflow_limit) as [L|L]; [|rewrite (B L) in H; discriminate H].
  destruct (as_double_ok m a z V I) as [A' _]. rewrite (A' L) in H. injection H as <-. destruct (Z.eq_dec z 0) as [->|N].
  - rewrite Z0 by lia. reflexivity.
  - pose proof (rounds_scale _ _ _ _ T Z.lt_0_1 (rounds_int z)) as R'. rewrite Z.mul_1_r in R'. subst n.
    replace (z * 10 ^ Z.of_nat k * unit_scale) with (10 ^ Z.of_nat k * (z * unit_scale)) in R by ring.
    assert (Np : 10 ^ Z.of_nat k * (z * unit_scale) <> 0) by nia. exact (rounds_unique _ _ _ _ T Np R R').
Qed.
Print Assumptions C76_whole.
(** Every finite double but the negative zero is denoted by a literal. *)
Theorem C76_every_double : forall f u, binary64 f -> units f = Some u -> f <> S754_zero true ->
  exists neg s n k, decimal s n k /\ literal_double neg s = Ok (VDbl f).
Proof.
  assert (P : forall f u, binary64 f -> units f = Some u -> negative f = false -> exists s n k, decimal s n k /\ literal_double false s = Ok (VDbl f)).
  { intros f u B U N. pose proof (sign_units _ _ B U) as Su. rewrite N in Su. pose (k := Z.to_nat 1074).
    assert (Kz : Z.of_nat k = 1074) by reflexivity. assert (Kp : (0 < k)%nat) by lia. pose proof (ten_pos k) as T. pose proof scale_pos as Sc.
    assert (Pn : 0 <= u * 5 ^ Z.of_nat k) by (apply Z.mul_nonneg_nonneg; [lia|apply Z.pow_nonneg; lia]).
    destruct (writable (u * 5 ^ Z.of_nat k) k Pn Kp) as [s D]. exists s, (u * 5 ^ Z.of_nat k), k. split; [exact D|].
    destruct (literal_positive _ _ _ D) as (h & H & R & Z0). rewrite H. do 2 f_equal.
    assert (E : u * 10 ^ Z.of_nat k = u * 5 ^ Z.of_nat k * unit_scale).
    { unfold unit_scale. rewrite <- Kz. replace 10 with (5 * 2) by lia. rewrite Z.pow_mul_l. ring. }
    pose proof (rounds_exact _ _ _ _ _ T R B U E) as Uh. apply (same_double h f u); [exact (proj1 R)|exact B|exact Uh|exact U|].
    rewrite N. destruct (Z.eq_dec u 0) as [Eu|Nu]; [rewrite Z0 by (rewrite Eu; reflexivity); reflexivity|].
    destruct R as (_ & S & _). assert (Pu : 0 < u * 5 ^ Z.of_nat k * unit_scale) by (rewrite <- E; nia).
    rewrite S by lia. apply Z.ltb_ge. lia. }
  intros f u B U N. destruct (negative f) eqn:S.
  - destruct (P (SFopp f) (- u)) as (s & n & k & D & H); [apply binary64_opp; exact B|apply units_opp; exact U|destruct f; try discriminate; cbn in *; subst; reflexivity|].
    exists true, s, n, k. split; [exact D|]. rewrite (literal_negative s n k _ D H). destruct f as [[]|[]| |[] p e]; try discriminate; try congruence; reflexivity.
  - destruct (P f u B U S) as (s & n & k & D & H). exists false, s, n, k. auto.
Qed.
Print Assumptions C76_every_double.
(** From the limit on a literal is infinite rather than refused. *)
Theorem C76_huge : forall s n k, decimal s n k -> overflow_limit * 10 ^ Z.of_nat k <= n * unit_scale ->
  literal_double false s = Ok (VDbl (S754_infinity false)) /\ literal_double true s = Ok (VDbl (S754_infinity true)).
Proof.
  intros s n k D L. destruct (literal_positive s n k D) as (f & F & (_ & _ & R) & _). pose proof (ten_pos k) as T. pose proof limit_pos as Lp.
  rewrite Z.abs_eq in R by nia. rewrite (proj2 (Z.leb_le _ _) L) in R. assert (X : (n * unit_scale <? 0) = false) by (apply Z.ltb_ge; nia). rewrite X in R. subst f.
  split; [exact F|]. rewrite (literal_negative s n k _ D F). reflexivity.
Qed.
Print Assumptions C76_huge.

Example C76_nonvacuous :
  decimal (list_ascii_of_string "0.10") 10 2 /\ decimal (list_ascii_of_string "0.1") 1 1 /\
  literal_double false (list_ascii_of_string "0.1") = Ok (VDbl (S754_finite false 7205759403792794 (-56))) /\
  literal_double true (list_ascii_of_string "0.10") = Ok (VDbl (S754_finite true 7205759403792794 (-56))) /\
  literal_double false (list_ascii_of_string "3.0") = Ok (VDbl (float_of_Z 3)) /\
  double_from_string (list_ascii_of_string "-0.0") = Ok (VDbl (S754_zero true)) /\ double_from_string (list_ascii_of_string "abc") = Ok VNil.
Proof.
  split; [|split; [|repeat split; vm_compute; reflexivity]].
  - exists ["0"%char], ["1"; "0"]%char. repeat (split; [try reflexivity; discriminate|]). split; [|reflexivity].
    apply (more_digits ["0"; "1"]%char 1 "0"%char 0); [apply (more_digits ["0"]%char 0 "1"%char 1); [constructor|]|]; cbn; tauto.
  - exists ["0"%char], ["1"]%char. repeat (split; [try reflexivity; discriminate|]). split; [|reflexivity].
    apply (more_digits ["0"]%char 0 "1"%char 1); [constructor|]; cbn; tauto.
Qed.
