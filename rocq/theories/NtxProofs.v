From Coq Require Import ZArith Bool String Ascii List Lia.
From Verif Require Import Base LexModel NtxModel NtxSpec.
Import ListNotations.
Open Scope Z_scope.
Open Scope list_scope.

Lemma digits10_char c d : In (c, d) digits10 -> char_digit c = Some d /\ 0 <= d <= 9 /\ c <> "-"%char /\ c <> "+"%char.
Proof.
  unfold digits10. simpl.
  intros H; repeat destruct H as [H|H]; try (injection H as <- <-; repeat split; try lia; discriminate). destruct H.
Qed.
Lemma digits10_of d : 0 <= d <= 9 -> In (digit_char d, d) digits10.
Proof.
  intros H. assert (C : d = 0 \/ d = 1 \/ d = 2 \/ d = 3 \/ d = 4 \/ d = 5 \/ d = 6 \/ d = 7 \/ d = 8 \/ d = 9) by lia.
  repeat destruct C as [->|C]; [..|subst d]; unfold digits10, digit_char; cbn; auto 12.
Qed.
Lemma numeral_nonempty s n : numeral s n -> s <> [].
Proof. destruct 1; [discriminate|]. destruct s; discriminate. Qed.
Lemma numeral_pos s n : numeral s n -> 0 <= n.
Proof. induction 1; apply digits10_char in H || apply digits10_char in H0; lia. Qed.
Lemma numeral_head c s n : numeral (c :: s) n -> c <> "-"%char /\ c <> "+"%char.
Proof.
  intros H. remember (c :: s) as u eqn:E. revert c s E. induction H; intros c0 s0 E.
  - injection E as <- <-. apply digits10_char in H. tauto.
  - destruct s as [|x s]; [exfalso; eapply numeral_nonempty; eauto|].
    injection E as <- _. eapply IHnumeral. reflexivity.
Qed.

(** ** Writing *)
Lemma low_digits_spec fuel : forall z, 0 <= z < 2 ^ Z.of_nat fuel ->
  (0 < fuel)%nat ->
  numeral (map digit_char (rev (low_digits fuel z))) z /\
  (forall u, map digit_char (rev (low_digits fuel z)) = "0"%char :: u -> u = []).
Proof.
  induction fuel as [|f IH]; intros z Hz Hf; [lia|].
  cbn [low_digits].
  assert (Dm := Z.mod_pos_bound z 10 ltac:(lia)).
  assert (Dq := Z.div_mod z 10 ltac:(lia)).
  assert (Q0 : 0 <= z / 10) by (apply Z.div_pos; lia).
  destruct (z / 10 =? 0) eqn:E.
  - apply Z.eqb_eq in E. split.
    + replace z with (z mod 10) at 2 by lia. apply one_digit. apply digits10_of. lia.
    + intros u H. apply (f_equal (@tl ascii)) in H. exact (eq_sym H).
  - apply Z.eqb_neq in E.
    assert (B : 2 ^ Z.of_nat (S f) = 2 * 2 ^ Z.of_nat f) by (rewrite Nat2Z.inj_succ, Z.pow_succ_r; lia).
    assert (f <> 0)%nat by (intros ->; cbn in B; change (2 ^ Z.of_nat 0) with 1 in B; lia).
    assert (P : 0 < 2 ^ Z.of_nat f) by (apply Z.pow_pos_nonneg; lia).
    destruct (IH (z / 10)) as [N L]; [lia|lia|].
    cbn [rev]. rewrite map_app. cbn [map]. split.
    + replace z with (10 * (z / 10) + z mod 10) at 3 by lia.
      apply more_digits; [exact N|]. apply digits10_of; lia.
    + intros u Hu.
      destruct (map digit_char (rev (low_digits f (z / 10)))) as [|c s] eqn:ES.
      { apply numeral_nonempty in N. congruence. }
      assert (c = "0"%char) as -> by exact (f_equal (hd "0"%char) Hu).
      assert (s = []) by (apply L; reflexivity). subst s.
      inversion N as [c d I | s n c d Ns I Es].
      * cbn in I.
        repeat destruct I as [I|I]; try (injection I as ? ?; subst; discriminate); try contradiction.
        injection I as I; subst; lia.
      * destruct s as [|x s]; [exfalso; eapply numeral_nonempty; eauto|destruct s; discriminate].
Qed.
Lemma py_str_written z : written (py_str z) z.
Proof.
  unfold py_str, written.
  assert (R : 0 <= Z.abs z < 2 ^ Z.of_nat (S (Z.to_nat (Z.log2 (Z.abs z))))).
  { split; [lia|]. rewrite Nat2Z.inj_succ, Z2Nat.id by apply Z.log2_nonneg.
    destruct (Z.eq_dec (Z.abs z) 0) as [->|N]; [cbn; lia|].
    apply Z.log2_spec. lia. }
  destruct (low_digits_spec _ _ R ltac:(lia)) as [N L].
  exists (map digit_char (rev (low_digits (S (Z.to_nat (Z.log2 (Z.abs z)))) (Z.abs z)))). auto.
Qed.

(** ** Reading *)
Lemma read_app m neg s : forall a t,
  read_digits m neg a (s ++ t) =
  match read_digits m neg a s with Number b => read_digits m neg b t | x => x end.
Proof.
  induction s as [|c s IH]; intros a t; cbn; [reflexivity|].
  destruct (char_digit c); [|reflexivity].
  destruct (ovfcheck m (a * 10)); [|reflexivity].
  destruct (ovfcheck m (z0 + (if neg then - z else z))); [apply IH|reflexivity].
Qed.
Definition sgn (neg : bool) (n : Z) : Z := if neg then - n else n.
Lemma sgn_step neg n d : sgn neg n * 10 + (if neg then - d else d) = sgn neg (10 * n + d).
Proof. unfold sgn. destruct neg; lia. Qed.
Lemma read_hosted neg s n : numeral s n -> read_digits Hosted neg 0 s = Number (sgn neg n).
Proof.
  induction 1 as [c d I|s n c d N IH I].
  - apply digits10_char in I. destruct I as (D & _). cbn [read_digits]. rewrite D. unfold ovfcheck, sgn. destruct neg; f_equal; lia.
  - apply digits10_char in I. destruct I as (D & _). rewrite read_app, IH. cbn [read_digits]. rewrite D. unfold ovfcheck.
    f_equal. apply sgn_step.
Qed.
Definition within (z : Z) : Prop := - 2 ^ 63 <= z < 2 ^ 63.
Lemma fits_within z : fits_word z = true <-> within z.
Proof. unfold fits_word, within, word_min, word_max. rewrite andb_true_iff, !Z.leb_le. lia. Qed.
Lemma fits_not z : fits_word z = false <-> ~ within z.
Proof. rewrite <- fits_within. destruct (fits_word z); intuition congruence. Qed.
Lemma read_word neg s n : numeral s n ->
  (within (sgn neg n) -> read_digits Translated neg 0 s = Number (sgn neg n)) /\
  (~ within (sgn neg n) -> read_digits Translated neg 0 s = Overflow).
Proof.
  induction 1 as [c d I|s n c d N IH I].
  - apply digits10_char in I. destruct I as (D & B & _).
    assert (W : within (sgn neg d)) by (unfold within, sgn; change (2 ^ 63) with 9223372036854775808; destruct neg; lia).
    split; [intros _|tauto]. cbn [read_digits]. rewrite D. unfold ovfcheck.
    replace (0 * 10) with 0 by lia. replace (fits_word 0) with true by reflexivity.
    replace (0 + (if neg then - d else d)) with (sgn neg d) by (destruct neg; reflexivity).
    rewrite (proj2 (fits_within _) W). reflexivity.
  - apply digits10_char in I. destruct I as (D & B & _).
    assert (N0 := numeral_pos _ _ N).
    rewrite read_app. destruct IH as [IHw IHo].
    destruct (fits_word (sgn neg n)) eqn:F.
    + apply fits_within in F. rewrite (IHw F). cbn [read_digits]. rewrite D. unfold ovfcheck.
      destruct (fits_word (sgn neg n * 10)) eqn:F10.
      * rewrite sgn_step. destruct (fits_word (sgn neg (10 * n + d))) eqn:F2.
        -- apply fits_within in F2. split; [reflexivity|tauto].
        -- apply fits_not in F2. split; [tauto|reflexivity].
      * apply fits_not in F10.
        assert (~ within (sgn neg (10 * n + d))).
        { intros W. apply F10. revert W. unfold within, sgn.
          change (2 ^ 63) with 9223372036854775808. destruct neg; lia. }
        split; [tauto|reflexivity].
    + apply fits_not in F. rewrite (IHo F).
      assert (~ within (sgn neg (10 * n + d))).
      { intros W. apply F. revert W. unfold within, sgn.
        change (2 ^ 63) with 9223372036854775808. destruct neg; lia. }
      split; [tauto|reflexivity].
Qed.
Lemma read_signed_written m s z : written s z -> exists t, numeral t (Z.abs z) /\
  read_signed m s = read_digits m (z <? 0) 0 t /\ sgn (z <? 0) (Z.abs z) = z.
Proof.
  intros (t & N & L & ->). exists t. split; [exact N|]. unfold sgn.
  assert (NE := numeral_nonempty _ _ N). destruct t as [|c t]; [congruence|].
  destruct (z <? 0) eqn:E.
  - apply Z.ltb_lt in E. split; [reflexivity|lia].
  - apply Z.ltb_ge in E. split; [|lia]. apply numeral_head in N. destruct N as [N1 N2].
    unfold read_signed. destruct c as [[] [] [] [] [] [] [] []]; try reflexivity;
    first [exfalso; apply N1; reflexivity | exfalso; apply N2; reflexivity].
Qed.
Lemma read_signed_numeral m s n : numeral s n -> read_signed m s = read_digits m false 0 s.
Proof.
  intros N. assert (NE := numeral_nonempty _ _ N). destruct s as [|c t]; [congruence|].
  apply numeral_head in N. destruct N as [N1 N2].
  unfold read_signed. destruct c as [[] [] [] [] [] [] [] []]; try reflexivity;
    first [exfalso; apply N1; reflexivity | exfalso; apply N2; reflexivity].
Qed.
