(** Proofs about decimal literals. *)
From Coq Require Import ZArith Bool String Ascii List Lia Floats.SpecFloat.
From Verif Require Import Base LexModel LexSpec NumModel NumSpec NtxModel NtxSpec NtxProofs DblSpec DblProofs DblRound DblArith FltSpec FltOps FltRoot DecModel DecSpec.
Import ListNotations.
Open Scope Z_scope.
Open Scope list_scope.

Lemma limit_pos : 0 < overflow_limit.
Proof. reflexivity. Qed.
Lemma rounds_scale p q c f : 0 < c -> 0 < q -> rounds_to p q f -> rounds_to (c * p) (c * q) f.
Proof.
  intros Hc Hq (B & S & R). split; [exact B|]. split.
  - intros N. assert (N' : p <> 0) by nia. rewrite (S N'). destruct (Z.ltb_spec p 0), (Z.ltb_spec (c * p) 0); try reflexivity; nia.
  - assert (A : Z.abs (c * p) = c * Z.abs p) by (rewrite Z.abs_mul; lia).
    assert (E : (overflow_limit * (c * q) <=? Z.abs (c * p)) = (overflow_limit * q <=? Z.abs p)).
    { rewrite A. pose proof limit_pos. destruct (Z.leb_spec (overflow_limit * q) (Z.abs p)), (Z.leb_spec (overflow_limit * (c * q)) (c * Z.abs p)); try reflexivity; exfalso; nia. }
    rewrite E. destruct (overflow_limit * q <=? Z.abs p).
    + rewrite R. f_equal. destruct (Z.ltb_spec p 0), (Z.ltb_spec (c * p) 0); try reflexivity; nia.
    + destruct R as (v & U & N). exists v. split; [exact U|]. intros g w Bg Ug. destruct (N g w Bg Ug) as [N1 N2].
      assert (D : forall t, Z.abs (t * (c * q) - c * p) = c * Z.abs (t * q - p)).
      { intros t. replace (t * (c * q) - c * p) with (c * (t * q - p)) by ring. rewrite Z.abs_mul. lia. }
      rewrite !D. split; [apply Z.mul_le_mono_nonneg_l; lia|]. intros Nw E'. apply N2; [exact Nw|]. apply Z.mul_reg_l in E'; lia.
Qed.
Lemma even_opp f : even_last (SFopp f) <-> even_last f.
Proof. destruct f; cbn; tauto. Qed.
Lemma opp_opp f : SFopp (SFopp f) = f.
Proof. destruct f as [s|s| |s p e]; cbn [SFopp]; rewrite ?negb_involutive; reflexivity. Qed.
Lemma rounds_opp p q f : 0 < q -> rounds_to p q f -> rounds_to (- p) q (SFopp f).
Proof.
  intros Hq (B & S & R). assert (Nn : f <> S754_nan).
  { intros ->. destruct (overflow_limit * q <=? Z.abs p); [discriminate R|]. destruct R as (v & U & _). discriminate U. }
  split; [apply binary64_opp; exact B|]. split.
  - intros N. assert (N' : p <> 0) by lia. specialize (S N'). replace (- p <? 0) with (negb (p <? 0)) by (destruct (Z.ltb_spec p 0), (Z.ltb_spec (- p) 0); try reflexivity; lia).
    rewrite <- S. destruct f; try reflexivity. congruence.
  - rewrite Z.abs_opp. destruct (Z.leb_spec (overflow_limit * q) (Z.abs p)) as [L|L].
    + rewrite R. cbn [SFopp]. f_equal. pose proof limit_pos. assert (p <> 0) by nia. destruct (Z.ltb_spec p 0), (Z.ltb_spec (- p) 0); try reflexivity; lia.
    + destruct R as (v & U & N). exists (- v). split; [apply units_opp; exact U|]. intros g w Bg Ug.
      destruct (N (SFopp g) (- w) (binary64_opp _ Bg) (units_opp _ _ Ug)) as [N1 N2].
      assert (D : forall t, Z.abs (- t * q - p) = Z.abs (t * q - - p)) by (intros t; rewrite <- Z.abs_opp; f_equal; ring).
      assert (D' : Z.abs (v * q - p) = Z.abs (- v * q - - p)) by (rewrite <- Z.abs_opp; f_equal; ring).
      rewrite D, D' in N1. rewrite D, D' in N2. split; [exact N1|]. intros Nw E. rewrite even_opp. apply N2; [lia|exact E].
Qed.
Lemma ten_pos k : 0 < 10 ^ Z.of_nat k.
Proof. apply Z.pow_pos_nonneg; lia. Qed.
Lemma rounds_decimal n k : 0 <= n -> rounds_to (n * unit_scale) (10 ^ Z.of_nat k) (decimal_double n k) /\ (n = 0 -> decimal_double n k = S754_zero false).
Proof.
  intros Hn. pose proof (ten_pos k) as T. destruct (rounds_truediv n (10 ^ Z.of_nat k)) as (f & R & E); [lia|].
  rewrite Z.sgn_pos, Z.mul_1_l, Z.abs_eq in R by lia. split.
  - unfold decimal_double. rewrite E. destruct f as [s|s| |s p e]; try exact R.
    destruct R as (B & S & R'). pose proof scale_pos as Sc.
    assert (X : (n * unit_scale <? 0) = false) by (apply Z.ltb_ge; nia).
    destruct (overflow_limit * 10 ^ Z.of_nat k <=? Z.abs (n * unit_scale)) eqn:O.
    + rewrite X in R'. injection R' as ->. split; [exact B|]. split; [exact S|]. rewrite O, X. reflexivity.
    + destruct R' as (v & U & _). discriminate U.
  - intros ->. unfold decimal_double, big_truediv. destruct (10 ^ Z.of_nat k) eqn:P; try lia. reflexivity.
Qed.

(** * Reading *)
Lemma all_digits_app a : forall acc b, all_digits acc (a ++ b) = match all_digits acc a with Some n => all_digits n b | None => None end.
Proof. induction a as [|c a IH]; intros acc b; cbn [app all_digits]; [reflexivity|]. destruct (char_digit c); [apply IH|reflexivity]. Qed.
Lemma numeral_digits s n : numeral s n -> all_digits 0 s = Some n /\ 0 <= n /\ Forall (fun c => exists d, In (c, d) digits10) s.
Proof.
  induction 1 as [c d H|s n c d H (E & P & F) Hc].
  - destruct (digits10_char c d H) as (A & B & _). cbn [all_digits]. rewrite A. split; [f_equal; lia|]. split; [lia|]. constructor; [eauto|constructor].
  - destruct (digits10_char c d Hc) as (A & B & _). rewrite all_digits_app, E. cbn [all_digits]. rewrite A. split; [reflexivity|]. split; [lia|].
    apply Forall_app. split; [exact F|]. constructor; [eauto|constructor].
Qed.
Lemma digit_not_point c d : In (c, d) digits10 -> Ascii.eqb c "." = false /\ c <> "-"%char /\ c <> "+"%char.
Proof.
  intros H. destruct (digits10_char c d H) as (A & _ & B & C). split; [|auto]. destruct (Ascii.eqb_spec c "."); [subst c; discriminate A|reflexivity].
Qed.
Lemma scan_whole d e : Forall (fun c => exists v, In (c, v) digits10) d ->
  scan (fun c => negb (Ascii.eqb c ".")) (d ++ "."%char :: e) = d.
Proof.
  induction 1 as [|c d [v H] F IH]; cbn [app scan]; [reflexivity|]. destruct (digit_not_point c v H) as [-> _]. cbn [negb]. now rewrite IH.
Qed.
Lemma unsigned_decimal s n k : decimal s n k -> unsigned_float s = Ok (decimal_double n k) /\ 0 <= n /\ py_float s = unsigned_float s.
Proof.
  intros (d & e & -> & Nd & Ne & H & ->). destruct (numeral_digits _ _ H) as (E & P & F). apply Forall_app in F. destruct F as [Fd Fe].
  split; [|split; [exact P|]].
  - unfold unsigned_float. rewrite (scan_whole d e Fd). rewrite skipn_app, skipn_all, Nat.sub_diag. cbn [skipn app].
    destruct (d ++ e) as [|c t] eqn:X; [destruct d; [congruence|discriminate X]|]. rewrite E. reflexivity.
  - destruct d as [|c d]; [congruence|]. inversion Fd as [|? ? [v Hc] _]; subst. destruct (digit_not_point c v Hc) as (_ & N1 & N2).
    cbn [app py_float]. destruct c as [[] [] [] [] [] [] [] []]; try reflexivity; congruence.
Qed.
Lemma minus_zero f : fsub (S754_zero false) f = match f with S754_zero _ => S754_zero false | f => SFopp f end.
Proof. destruct f as [[]|[]| |[] p e]; reflexivity. Qed.
Lemma literal_positive s n k : decimal s n k ->
  exists h, literal_double false s = Ok (VDbl h) /\ rounds_to (n * unit_scale) (10 ^ Z.of_nat k) h /\ (n = 0 -> h = S754_zero false).
Proof.
  intros D. destruct (unsigned_decimal s n k D) as (U & P & F). destruct (rounds_decimal n k P) as [R Z0].
  unfold literal_double. rewrite F, U. eexists. split; [reflexivity|]. split; [exact R|exact Z0].
Qed.
Lemma literal_negative s n k h : decimal s n k -> literal_double false s = Ok (VDbl h) ->
  literal_double true s = Ok (VDbl (match h with S754_zero _ => S754_zero false | _ => SFopp h end)).
Proof.
  intros D H. destruct (unsigned_decimal s n k D) as (U & P & F). unfold literal_double in *. rewrite F, U in *. injection H as <-.
  rewrite minus_zero. reflexivity.
Qed.
(** A text with a sign. *)
Lemma from_string_signed s n k h : decimal s n k -> literal_double false s = Ok (VDbl h) ->
  double_from_string s = Ok (VDbl h) /\ double_from_string ("+"%char :: s) = Ok (VDbl h) /\ double_from_string ("-"%char :: s) = Ok (VDbl (SFopp h)).
Proof.
  intros D H. destruct (unsigned_decimal s n k D) as (U & P & F). unfold literal_double in H. unfold double_from_string. rewrite F, U in *. injection H as <-.
  cbn [py_float]. rewrite U. auto.
Qed.
(** The same number, or a larger one, written with another number of digits. *)
Lemma common_scale n k n' k' f g : rounds_to (n * unit_scale) (10 ^ Z.of_nat k) f -> rounds_to (n' * unit_scale) (10 ^ Z.of_nat k') g ->
  let q := 10 ^ Z.of_nat k * 10 ^ Z.of_nat k' in
  0 < q /\ rounds_to (n * 10 ^ Z.of_nat k' * unit_scale) q f /\ rounds_to (n' * 10 ^ Z.of_nat k * unit_scale) q g.
Proof.
  intros R R' q. pose proof (ten_pos k) as T. pose proof (ten_pos k') as T'. split; [subst q; nia|].
  pose proof (rounds_scale _ _ _ _ T' T R) as A. pose proof (rounds_scale _ _ _ _ T T' R') as B. split.
  - replace (n * 10 ^ Z.of_nat k' * unit_scale) with (10 ^ Z.of_nat k' * (n * unit_scale)) by ring.
    replace q with (10 ^ Z.of_nat k' * 10 ^ Z.of_nat k) by (subst q; ring). exact A.
  - replace (n' * 10 ^ Z.of_nat k * unit_scale) with (10 ^ Z.of_nat k * (n' * unit_scale)) by ring. exact B.
Qed.
(** * Tokens *)
Lemma digit_listed c : digit c -> exists d, In (c, d) digits10.
Proof.
  intros H. unfold digit, code in H. exists (Z.of_nat (nat_of_ascii c - 48)).
  rewrite <- (ascii_nat_embedding c) at 1. remember (nat_of_ascii c) as n eqn:E. clear E.
  assert (C : (n = 48 \/ n = 49 \/ n = 50 \/ n = 51 \/ n = 52 \/ n = 53 \/ n = 54 \/ n = 55 \/ n = 56 \/ n = 57)%nat) by lia.
  repeat destruct C as [->|C]; [..|subst n]; unfold digits10; cbn; auto 12.
Qed.
Lemma digits_numeral s : s <> [] -> Forall digit s -> exists n, numeral s n.
Proof.
  induction s as [|c s IH] using rev_ind; [congruence|]. intros _ F. apply Forall_app in F. destruct F as [F Fc]. inversion Fc as [|? ? Hc _]; subst.
  destruct (digit_listed c Hc) as [d D]. destruct s as [|x s]; [exists d; apply one_digit; exact D|].
  destruct (IH ltac:(discriminate) F) as [n N]. exists (10 * n + d). apply more_digits; assumption.
Qed.
(** * Writing *)
Lemma leading_zero s n : numeral s n -> numeral ("0"%char :: s) n.
Proof.
  induction 1 as [c d H|s n c d H IH Hc].
  - replace d with (10 * 0 + d) by lia. apply (more_digits ["0"%char] 0 c d); [constructor; cbn; auto|exact H].
  - exact (more_digits ("0"%char :: s) n c d IH Hc).
Qed.
Lemma leading_zeros j s n : numeral s n -> numeral (repeat "0"%char j ++ s) n.
Proof. intros H. induction j as [|j IH]; cbn [repeat app]; [exact H|]. apply leading_zero. exact IH. Qed.
Lemma writable n k : 0 <= n -> (0 < k)%nat -> exists s, decimal s n k.
Proof.
  intros Hn Hk. assert (W : exists t, numeral t n).
  { destruct (py_str_written n) as (t & T & _). rewrite Z.abs_eq in T by exact Hn. eauto. }
  destruct W as [t T]. pose (w := repeat "0"%char (S k) ++ t). assert (Lw : (k < List.length w)%nat) by (subst w; rewrite app_length, repeat_length; lia).
  assert (Ek : List.length (skipn (List.length w - k) w) = k) by (rewrite skipn_length; lia).
  exists (firstn (List.length w - k) w ++ "."%char :: skipn (List.length w - k) w).
  exists (firstn (List.length w - k) w), (skipn (List.length w - k) w). split; [reflexivity|].
  split; [intros E; apply (f_equal (@List.length _)) in E; rewrite firstn_length in E; cbn [List.length] in E; lia|].
  split; [intros E; rewrite E in Ek; cbn [List.length] in Ek; lia|]. split; [rewrite firstn_skipn; apply leading_zeros; exact T|congruence].
Qed.
Lemma unsigned_whole s n : numeral s n -> py_float s = Ok (decimal_double n 0) /\ 0 <= n.
Proof.
  intros H. destruct (numeral_digits _ _ H) as (E & P & F). split; [|exact P].
  assert (A : unsigned_float s = Ok (decimal_double n 0)).
  { unfold unsigned_float. assert (W : scan (fun c => negb (Ascii.eqb c ".")) s = s).
    { clear - F. induction F as [|c s [v H] F IH]; cbn [scan]; [reflexivity|]. destruct (digit_not_point c v H) as [-> _]. cbn [negb]. now rewrite IH. }
    rewrite W, skipn_all. cbn [skipn]. rewrite app_nil_r. destruct s as [|c t]; [destruct (numeral_nonempty _ _ H eq_refl)|]. rewrite E. reflexivity. }
  rewrite <- A. destruct s as [|c t]; [reflexivity|]. destruct (numeral_head _ _ _ H) as [N1 N2]. cbn [py_float].
  destruct c as [[] [] [] [] [] [] [] []]; try reflexivity; congruence.
Qed.
