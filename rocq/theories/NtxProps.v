(** Integers as text: C10, C57. *)
From Coq Require Import ZArith Bool String Ascii List Lia.
From Verif Require Import Base NumSpec LexModel NtxModel NtxSpec NtxProofs.
Import ListNotations.
Open Scope Z_scope.
Open Scope list_scope.

Lemma reads m s z : written s z ->
  (word_sized m z -> read_signed m s = Number z) /\
  (~ word_sized m z -> read_signed m s = Overflow) /\ bigint_from_str s = Ok z.
Proof.
  intros W. unfold bigint_from_str.
  destruct (read_signed_written m s z W) as (t & N & E & Z).
  destruct (read_signed_written Hosted s z W) as (t' & N' & E' & Z').
  rewrite E, E', (read_hosted _ _ _ N'), Z'.
  destruct m; cbn [word_sized].
  - destruct (read_word (z <? 0) _ _ N) as [A B]. unfold within in *. rewrite Z in *. auto.
  - rewrite (read_hosted _ _ _ N), Z. split; [auto|split; [tauto|auto]].
Qed.

(** asString answers the decimal numeral of an integer, and fromString: reads it back as an
    integer of the same value, a machine word exactly when the value fits one. *)
Theorem C10_round_trip m v z : valid m v -> int_val v = Some z ->
  exists t, as_string v = Ok (VStr t) /\ written (list_ascii_of_string t) z /\
    answers_int m (from_string m (VStr t)) z /\
    (forall w, from_string m (VStr t) = Ok w -> (NumSpec.is_word w <-> word_sized m z)).
Proof.
  intros V I. exists (string_of_list_ascii (py_str z)).
  assert (W := py_str_written z). destruct (reads m _ _ W) as (A & B & C).
  split; [destruct v; try discriminate; cbn in I; injection I as ->; reflexivity|].
  unfold from_string, string_to_int. rewrite list_ascii_of_string_of_list_ascii.
  split; [exact W|].
  assert (D : word_sized m z \/ ~ word_sized m z).
  { destruct m; cbn; [|auto]. lia. }
  destruct D as [D|D].
  - rewrite (A D). split.
    + exists (VInt z). split; [reflexivity|]. split; [reflexivity|]. destruct m; exact D || exact Logic.I.
    + intros w H. injection H as <-. split; [auto|]. intros _. exists z. reflexivity.
  - rewrite (B D), C. cbn [Base.bind]. split.
    + exists (VBig z). split; [reflexivity|]. split; [reflexivity|]. destruct m; [exact Logic.I|].
      contradiction D. exact Logic.I.
    + intros w H. injection H as <-. split; [|tauto]. intros (x & X). discriminate X.
Qed.
Print Assumptions C10_round_trip.
Example C10_nonvacuous :
  valid Translated (VInt (- 2 ^ 63)) /\
  as_string (VInt (- 2 ^ 63)) = Ok (VStr "-9223372036854775808") /\
  from_string Translated (VStr "-9223372036854775808") = Ok (VInt (- 2 ^ 63)) /\
  as_string (VBig (2 ^ 63)) = Ok (VStr "9223372036854775808") /\
  from_string Translated (VStr "9223372036854775808") = Ok (VBig (2 ^ 63)) /\
  from_string Hosted (VStr "9223372036854775808") = Ok (VInt (2 ^ 63)).
Proof. repeat split; vm_compute; congruence. Qed.

(** A string that spells an integer is read as that integer, also with leading
    zeros. *)
Theorem C10_reads_numerals m (neg : bool) t n : numeral t n ->
  answers_int m (from_string m (VStr (string_of_list_ascii (if neg then "-"%char :: t else t))))
    (if neg then - n else n).
Proof.
  intros N. unfold from_string, string_to_int, bigint_from_str.
  rewrite list_ascii_of_string_of_list_ascii.
  assert (E : forall m, read_signed m (if neg then "-"%char :: t else t) = read_digits m neg 0 t).
  { intros m'. destruct neg; [|apply (read_signed_numeral _ _ n N)].
    assert (NE := numeral_nonempty _ _ N). destruct t; [congruence|reflexivity]. }
  rewrite !E, (read_hosted _ _ _ N). change (if neg then - n else n) with (sgn neg n).
  destruct m.
  - destruct (read_word neg _ _ N) as [A B].
    assert (D : within (sgn neg n) \/ ~ within (sgn neg n)) by (unfold within; lia).
    destruct D as [D|D].
    + rewrite (A D). exists (VInt (sgn neg n)). split; [reflexivity|split; [reflexivity|exact D]].
    + rewrite (B D). exists (VBig (sgn neg n)). split; [reflexivity|split; [reflexivity|exact I]].
  - rewrite (read_hosted _ _ _ N). exists (VInt (sgn neg n)).
    split; [reflexivity|split; [reflexivity|exact I]].
Qed.
Print Assumptions C10_reads_numerals.
(** Also with a plus sign in front. *)
Theorem C10_reads_plus m t n : numeral t n ->
  answers_int m (from_string m (VStr (string_of_list_ascii ("+"%char :: t)))) n.
Proof.
  intros N. pose proof (C10_reads_numerals m false t n N) as H. cbn [negb] in H.
  unfold from_string, string_to_int, bigint_from_str in *.
  rewrite list_ascii_of_string_of_list_ascii in *.
  assert (E : forall m, read_signed m ("+"%char :: t) = read_signed m t).
  { intros m'. rewrite (read_signed_numeral _ _ n N).
    assert (NE := numeral_nonempty _ _ N). destruct t; [congruence|reflexivity]. }
  rewrite !E. exact H.
Qed.
Print Assumptions C10_reads_plus.
Example C10_nonvacuous_numerals : numeral (list_ascii_of_string "007") 7.
Proof.
  apply (more_digits ["0"; "0"]%char 0 "7"%char 7); [|cbn; auto 12].
  apply (more_digits ["0"]%char 0 "0"%char 0); [|cbn; auto]. apply one_digit. cbn. auto.
Qed.

(** An integer literal of the source, with or without a minus sign, denotes the number its
    digits spell; without a minus sign it is a machine word exactly when the number fits. *)
Theorem C57_literal m neg t n : numeral t n ->
  answers_int m (literal_integer m neg t) (if neg then - n else n).
Proof.
  intros N. unfold literal_integer, string_to_int, bigint_from_str.
  rewrite !(read_signed_numeral _ _ n N), (read_hosted _ _ _ N).
  assert (P := numeral_pos _ _ N).
  destruct m.
  - destruct (read_word false _ _ N) as [A B].
    assert (D : within (sgn false n) \/ ~ within (sgn false n)) by (unfold within; lia).
    destruct D as [D|D].
    + rewrite (A D). unfold sgn in *. exists (VInt (if neg then 0 - n else n)). split; [reflexivity|].
      split; [destruct neg; cbn; f_equal; lia|]. revert D. unfold valid, within.
      change (2 ^ 63) with 9223372036854775808. destruct neg; lia.
    + rewrite (B D). unfold sgn in *. cbn [Base.bind]. exists (VBig (if neg then - Z.abs n else n)).
      split; [reflexivity|]. split; [destruct neg; cbn; f_equal; lia|exact I].
  - rewrite (read_hosted _ _ _ N). unfold sgn. exists (VInt (if neg then 0 - n else n)).
    split; [reflexivity|]. split; [destruct neg; cbn; f_equal; lia|exact I].
Qed.
Print Assumptions C57_literal.
(** The smallest machine word written as a literal is a big integer (of the right value):
    the representation of a negative literal is not always the smallest one. *)
Theorem C57_smallest_word_is_big :
  exists t, numeral t (2 ^ 63) /\ literal_integer Translated true t = Ok (VBig (- 2 ^ 63)) /\
    from_string Translated (VStr (string_of_list_ascii ("-"%char :: t))) = Ok (VInt (- 2 ^ 63)).
Proof.
  destruct (py_str_written (2 ^ 63)) as (t & N & _ & E).
  change (2 ^ 63 <? 0) with false in E. cbv iota in E.
  exists t. split; [exact N|]. rewrite <- E. split; vm_compute; reflexivity.
Qed.
Print Assumptions C57_smallest_word_is_big.
Example C57_nonvacuous : numeral ["4"; "2"]%char 42 /\
  literal_integer Translated false ["4"; "2"]%char = Ok (VInt 42) /\ literal_integer Hosted true ["4"; "2"]%char = Ok (VInt (-42)) /\
  literal_integer Translated true (list_ascii_of_string "9223372036854775809") = Ok (VBig (-9223372036854775809)).
Proof.
  split; [|repeat split; vm_compute; reflexivity].
  apply (more_digits ["4"%char] 4 "2"%char 2); [constructor|]; cbn; tauto.
Qed.
