(** Proofs about the number model. *)
From Coq Require Import ZArith Bool String List Lia Floats.SpecFloat.
From Verif Require Import Base NumModel NumSpec.
Import ListNotations.
Open Scope Z_scope.

Lemma fits_word_spec z : fits_word z = true <-> - 2 ^ 63 <= z < 2 ^ 63.
Proof.
  unfold fits_word, word_min, word_max.
  rewrite andb_true_iff, !Z.leb_le. lia.
Qed.

Lemma wrap_word_id z : - 2 ^ 63 <= z < 2 ^ 63 -> wrap_word z = z.
Proof. intros H. unfold wrap_word. rewrite Z.mod_small; lia. Qed.

Lemma wrap_word_range z : - 2 ^ 63 <= wrap_word z < 2 ^ 63.
Proof.
  unfold wrap_word. pose proof (Z.mod_pos_bound (z + 2 ^ 63) (2 ^ 64)). lia.
Qed.

Lemma wrap_word_mod z : wrap_word z mod 2 ^ 64 = z mod 2 ^ 64.
Proof.
  unfold wrap_word.
  rewrite Zminus_mod_idemp_l. f_equal. lia.
Qed.

(** ** exactness *)
Lemma checked_exact m z :
  exists v,
    match ovfcheck m z with Some y => Ok (VInt y) | None => Ok (VBig z) end = Ok v
    /\ int_val v = Some z /\ valid m v /\ (is_word v <-> word_sized m z).
Proof.
  destruct m; simpl.
  - destruct (fits_word z) eqn:E.
    + apply fits_word_spec in E. exists (VInt z). repeat split; auto; try lia.
      exists z; auto.
    + exists (VBig z). split; [auto|]. split; [auto|]. split; [exact I|]. split.
      * intros [y Hy]; discriminate.
      * intros H. apply fits_word_spec in H. congruence.
  - exists (VInt z). repeat split; auto. exists z; auto.
Qed.

Definition exact_op (op : mode -> value -> value -> res value) (f : Z -> Z -> Z) : Prop :=
  forall m a b x y,
    valid m a -> valid m b -> int_val a = Some x -> int_val b = Some y ->
    exists v, op m a b = Ok v /\ int_val v = Some (f x y) /\ valid m v
      /\ (is_word v <-> is_word a /\ is_word b /\ word_sized m (f x y)).

Lemma not_word_big z : ~ is_word (VBig z).
Proof. intros [y H]; discriminate. Qed.
Lemma word_int z : is_word (VInt z).
Proof. exists z; auto. Qed.
#[global] Hint Resolve word_int : num.

Ltac big_case w :=
  exists (VBig w); split; [f_equal; f_equal; try lia|]; split; [simpl; first [reflexivity|f_equal; lia]|];
  split; [exact I|]; split;
  [intros H; destruct (not_word_big _ H)
  |intros (H1 & H2 & _); first [destruct (not_word_big _ H1)|destruct (not_word_big _ H2)]].

Lemma word_case m z :
  exists v,
    match ovfcheck m z with Some y => Ok (VInt y) | None => Ok (VBig z) end = Ok v
    /\ int_val v = Some z /\ valid m v
    /\ forall x y, is_word v <-> is_word (VInt x) /\ is_word (VInt y) /\ word_sized m z.
Proof.
  destruct (checked_exact m z) as (v & H1 & H2 & H3 & H4).
  exists v; repeat split; auto with num; try tauto.
Qed.

Ltac exact_tac :=
  intros m a b x y Va Vb Ha Hb;
  destruct a; simpl in Ha; inversion Ha; subst; clear Ha;
  destruct b; simpl in Hb; inversion Hb; subst; clear Hb; simpl;
  try solve [destruct m; [fail|destruct Va]];
  try match goal with
      | V : valid m (VBig _) |- _ => destruct m; [|destruct V]
      end.

Lemma add_exact : exact_op prim_add Z.add.
Proof.
  exact_tac.
  - destruct (word_case m (x + y)) as (v & H1 & H2 & H3 & H4); exists v; auto.
  - big_case (y + x).
  - big_case (y + x).
  - big_case (y + x).
Qed.

Lemma sub_exact : exact_op prim_subtract Z.sub.
Proof.
  exact_tac.
  - destruct (word_case m (x - y)) as (v & H1 & H2 & H3 & H4); exists v; auto.
  - big_case (x - y).
  - big_case (x - y).
  - big_case (x - y).
Qed.

Lemma mul_exact : exact_op prim_multiply Z.mul.
Proof.
  exact_tac.
  - destruct (word_case m (x * y)) as (v & H1 & H2 & H3 & H4); exists v; auto.
  - big_case (x * y).
  - big_case (x * y).
  - big_case (x * y).
Qed.

Lemma send1_int m a x sel b :
  int_val a = Some x ->
  send1 m a sel b = match integer_binary m sel with
                    | Some f => f a b | None => Err NotInstalled end.
Proof. destruct a; simpl; intros H; try discriminate; reflexivity. Qed.

(** ** inc / dec *)
Lemma inc_eq m v : is_number v ->
  bc_inc m v = send1 m v "+" (VInt 1) /\ ast_inc m v = send1 m v "+" (VInt 1).
Proof.
  destruct v; simpl; intros H; try destruct H; unfold bc_inc, ast_inc, send1; simpl.
  - split; reflexivity.
  - split; reflexivity.
  - destruct m; split; reflexivity.
Qed.

Lemma dec_eq m v : is_number v -> (forall z, v <> VBig z) ->
  bc_dec m v = send1 m v "-" (VInt 1).
Proof.
  destruct v; simpl; intros H Hb; try destruct H; unfold bc_dec, send1; simpl.
  - reflexivity.
  - exfalso; eapply Hb; eauto.
  - destruct m; reflexivity.
Qed.

Lemma dec_big_iff m z : bc_dec m (VBig z) = send1 m (VBig z) "-" (VInt 1) <-> z = 1.
Proof.
  change (Ok (VBig (1 - z)) = Ok (VBig (z - 1)) <-> z = 1). split; intros H.
  - assert (E : 1 - z = z - 1) by congruence. lia.
  - subst; reflexivity.
Qed.

(** ** order *)
Lemma som_bool_answers b (P : Prop) : (b = true <-> P) -> answers_bool (Ok (som_bool b)) P.
Proof.
  intros H. destruct b; simpl; [left|right]; split; auto.
  - apply H; auto.
  - intros HP. apply H in HP. discriminate.
Qed.

Ltac cmp_tac :=
  intros Ha Hb;
  match goal with a : value |- _ => idtac end;
  rewrite (send1_int _ _ _ _ _ Ha); simpl;
  repeat match goal with
         | H : int_val ?v = Some _ |- _ =>
             destruct v; simpl in H; inversion H; subst; clear H
         end; simpl;
  apply som_bool_answers;
  rewrite ?negb_true_iff, ?Z.ltb_lt, ?Z.leb_le, ?Z.eqb_eq, ?Z.eqb_neq; lia.

Lemma lt_ok m a b x y : int_val a = Some x -> int_val b = Some y ->
  answers_bool (send1 m a "<" b) (x < y).
Proof. cmp_tac. Qed.
Lemma le_ok m a b x y : int_val a = Some x -> int_val b = Some y ->
  answers_bool (send1 m a "<=" b) (x <= y).
Proof. cmp_tac. Qed.
Lemma gt_ok m a b x y : int_val a = Some x -> int_val b = Some y ->
  answers_bool (send1 m a ">" b) (x > y).
Proof. cmp_tac. Qed.
Lemma ge_ok m a b x y : int_val a = Some x -> int_val b = Some y ->
  answers_bool (send1 m a ">=" b) (x >= y).
Proof. cmp_tac. Qed.
Lemma eq_ok m a b x y : int_val a = Some x -> int_val b = Some y ->
  answers_bool (send1 m a "=" b) (x = y).
Proof. cmp_tac. Qed.
Lemma eqeq_ok m a b x y : int_val a = Some x -> int_val b = Some y ->
  answers_bool (send1 m a "==" b) (x = y).
Proof. cmp_tac. Qed.
Lemma ne_ok m a b x y : int_val a = Some x -> int_val b = Some y ->
  answers_bool (send1 m a "<>" b) (x <> y).
Proof. cmp_tac. Qed.
Lemma ne2_ok m a b x y : int_val a = Some x -> int_val b = Some y ->
  answers_bool (send1 m a "~=" b) (x <> y).
Proof. cmp_tac. Qed.

Lemma eq_non_number m a x b : int_val a = Some x -> ~ is_number b ->
  send1 m a "=" b = Ok VFalse /\ send1 m a "<>" b = Ok VTrue
  /\ send1 m a "~=" b = Ok VTrue /\ send1 m a "==" b = Ok VFalse.
Proof.
  intros Ha Hb. rewrite !(send1_int _ _ _ _ _ Ha).
  destruct a; simpl in Ha; inversion Ha; subst;
    destruct b; simpl in Hb; try (exfalso; apply Hb; exact I); repeat split.
Qed.

(** ** division *)
Definition traps (m : mode) (a b : value) : Prop :=
  m = Translated /\ a = VInt (- 2 ^ 63) /\ b = VInt (-1).

Lemma no_trap m x y : y <> 0 -> ~ traps m (VInt x) (VInt y) -> m = Translated ->
  (y =? 0) || ((x =? word_min) && (y =? -1)) = false.
Proof.
  intros Hy Ht Hm. apply orb_false_iff. split; [apply Z.eqb_neq; auto|].
  apply andb_false_iff.
  destruct (Z.eqb_spec x word_min); [|auto].
  destruct (Z.eqb_spec y (-1)); [|auto].
  subst. exfalso; apply Ht. repeat split.
Qed.

(** floor quotient and remainder of machine words stay in range *)
Lemma div_word_range x y : - 2 ^ 63 <= x < 2 ^ 63 -> - 2 ^ 63 <= y < 2 ^ 63 -> y <> 0 ->
  ~ (x = - 2 ^ 63 /\ y = -1) -> - 2 ^ 63 <= x / y < 2 ^ 63.
Proof.
  intros Hx Hy Hz Ht.
  pose proof (Z.div_mod x y Hz) as E.
  destruct (Z.lt_trichotomy y 0) as [Hn|[He|Hp]]; [|lia|].
  - pose proof (Z.mod_neg_bound x y Hn). nia.
  - pose proof (Z.mod_pos_bound x y Hp). nia.
Qed.

Lemma mod_word_range x y : - 2 ^ 63 <= y < 2 ^ 63 -> y <> 0 -> - 2 ^ 63 <= x mod y < 2 ^ 63.
Proof.
  intros Hy Hz.
  destruct (Z.lt_trichotomy y 0) as [Hn|[He|Hp]]; [|lia|].
  - pose proof (Z.mod_neg_bound x y Hn). lia.
  - pose proof (Z.mod_pos_bound x y Hp). lia.
Qed.

Lemma floor_div m a b x y :
  valid m a -> valid m b -> int_val a = Some x -> int_val b = Some y -> y <> 0 ->
  ~ traps m a b ->
  exists q r, answers_int m (send1 m a "/" b) q /\ answers_int m (send1 m a "%" b) r
    /\ x = q * y + r /\ (0 <= r < y \/ y < r <= 0).
Proof.
  intros Va Vb Ha Hb Hy Ht. exists (x / y), (x mod y).
  rewrite !(send1_int _ _ _ _ _ Ha). simpl.
  assert (Hlaw : x = x / y * y + x mod y /\ (0 <= x mod y < y \/ y < x mod y <= 0)).
  { split.
    - rewrite (Z.mul_comm (x / y)). apply Z.div_mod; auto.
    - destruct (Z.lt_trichotomy y 0) as [Hn|[He|Hp]]; [right|contradiction|left].
      + apply Z.mod_neg_bound; auto.
      + apply Z.mod_pos_bound; auto. }
  unfold answers_int.
  destruct a; simpl in Ha; inversion Ha; subst; clear Ha;
  destruct b; simpl in Hb; inversion Hb; subst; clear Hb; simpl.
  - unfold py_int_floordiv, py_int_mod.
    destruct m.
    + rewrite (no_trap _ _ _ Hy Ht eq_refl). simpl in *.
      split; [|split; [|auto]].
      * exists (VInt (x / y)). simpl. repeat split; try apply div_word_range; auto;
        intros [E1 E2]; apply Ht; subst; repeat split.
      * exists (VInt (x mod y)). simpl. repeat split; apply mod_word_range; auto.
    + apply Z.eqb_neq in Hy. rewrite Hy. simpl.
      split; [exists (VInt (x / y))|split; [exists (VInt (x mod y))|]]; auto.
  - unfold big_floordiv, big_mod. destruct m; [|destruct Vb].
    apply Z.eqb_neq in Hy. rewrite Hy. simpl.
    split; [exists (VBig (x / y))|split; [exists (VBig (x mod y))|]]; auto.
  - unfold big_floordiv, big_mod. destruct m; [|destruct Va].
    apply Z.eqb_neq in Hy. rewrite Hy. simpl.
    split; [exists (VBig (x / y))|split; [exists (VBig (x mod y))|]]; auto.
  - unfold big_floordiv, big_mod. destruct m; [|destruct Va].
    apply Z.eqb_neq in Hy. rewrite Hy. simpl.
    split; [exists (VBig (x / y))|split; [exists (VBig (x mod y))|]]; auto.
Qed.

Lemma div_zero_fails m a b x sel : int_val a = Some x -> int_val b = Some 0 ->
  In sel ["/"; "%"]%string -> fails (send1 m a sel b).
Proof.
  intros Ha Hb Hs v. rewrite (send1_int _ _ _ _ _ Ha).
  destruct Hs as [<-|[<-|[]]]; simpl;
    destruct a; simpl in Ha; inversion Ha; subst;
    destruct b; simpl in Hb; inversion Hb; subst; simpl;
    try destruct m; simpl; discriminate.
Qed.

Lemma rem_word_range x y : - 2 ^ 63 <= x < 2 ^ 63 -> y <> 0 -> - 2 ^ 63 <= Z.rem x y < 2 ^ 63.
Proof.
  intros Hx Hy.
  assert (A : Z.abs (Z.rem x y) <= Z.abs x).
  { rewrite <- Z.rem_abs by auto. apply Z.rem_le; lia. }
  destruct (Z.le_gt_cases 0 x).
  - pose proof (Z.rem_nonneg x y Hy ltac:(lia)). lia.
  - pose proof (Z.rem_nonpos x y Hy ltac:(lia)). lia.
Qed.

Lemma hosted_int_mod x y : y <> 0 ->
  (if 0 <? x then Z.abs x mod Z.abs y else 0 - Z.abs x mod Z.abs y) = Z.rem x y.
Proof.
  intros Hy.
  assert (Hay : Z.abs y <> 0) by lia.
  assert (E : Z.abs x mod Z.abs y = Z.rem (Z.abs x) (Z.abs y)).
  { rewrite Z.rem_mod_nonneg; lia. }
  rewrite E.
  assert (Ry : forall t, Z.rem t (Z.abs y) = Z.rem t y).
  { intros t. destruct (Z.abs_spec y) as [[_ ->]|[_ ->]]; auto using Z.rem_opp_r'. }
  rewrite Ry.
  destruct (Z.ltb_spec 0 x).
  - rewrite Z.abs_eq; lia.
  - rewrite Z.abs_neq by lia. rewrite Z.rem_opp_l'. lia.
Qed.

Definition both_big (a b : value) : Prop := (exists x, a = VBig x) /\ (exists y, b = VBig y).

Lemma rem_ok m a b x y :
  valid m a -> valid m b -> int_val a = Some x -> int_val b = Some y -> y <> 0 ->
  ~ traps m a b -> ~ both_big a b ->
  answers_int m (send1 m a "rem:" b) (Z.rem x y).
Proof.
  intros Va Vb Ha Hb Hy Ht Hbb. rewrite (send1_int _ _ _ _ _ Ha). simpl.
  destruct a; simpl in Ha; inversion Ha; subst; clear Ha;
  destruct b; simpl in Hb; inversion Hb; subst; clear Hb; simpl; unfold answers_int.
  - unfold llop_int_mod. destruct m.
    + rewrite (no_trap _ _ _ Hy Ht eq_refl). simpl in *.
      exists (VInt (Z.rem x y)). simpl. repeat split; apply rem_word_range; auto.
    + destruct (Z.eqb_spec y 0); [contradiction|].
      exists (VInt (Z.rem x y)). rewrite <- hosted_int_mod by auto.
      destruct (0 <? x); simpl; auto.
  - unfold big_divrem. destruct (Z.eqb_spec y 0); [contradiction|]. simpl.
    exists (VBig (Z.rem x y)). destruct m; [|destruct Vb]. auto.
  - unfold big_remainder, big_divrem. simpl. destruct (Z.eqb_spec y 0); [contradiction|]. simpl.
    exists (VBig (Z.rem x y)). destruct m; [|destruct Va]. auto.
  - exfalso. apply Hbb. split; eauto.
Qed.

(** characterisation of the truncated remainder used in the statement *)
Lemma rem_char x y : y <> 0 ->
  let r := Z.rem x y in
  (exists k, x - r = k * y) /\ Z.abs r < Z.abs y /\ (r = 0 \/ Z.sgn r = Z.sgn x).
Proof.
  intros Hy r. subst r. split; [|split].
  - exists (Z.quot x y). pose proof (Z.quot_rem' x y). lia.
  - apply Z.rem_bound_abs; auto.
  - destruct (Z.eq_dec (Z.rem x y) 0); auto. right.
    apply Z.rem_sign_nz; auto.
Qed.

Lemma rem_big_big m x y : send1 m (VBig x) "rem:" (VBig y) =
  if x =? 0 then Err ZeroDivisionError else Ok (VBig 0).
Proof.
  unfold send1; simpl. unfold big_remainder, big_divrem; simpl.
  destruct (Z.eqb_spec x 0); simpl; auto.
  rewrite Z.rem_same by auto. reflexivity.
Qed.

(** ** bits *)
Lemma testbit_high z i : - 2 ^ 63 <= z < 2 ^ 63 -> 63 <= i -> Z.testbit z i = (z <? 0).
Proof.
  intros Hz Hi.
  destruct (Z.ltb_spec z 0).
  - destruct (Z.eq_dec z (-1)).
    + subst. apply Z.bits_m1. lia.
    + replace z with (Z.lnot (Z.lnot z)) by apply Z.lnot_involutive.
      rewrite Z.lnot_spec by lia. apply negb_true_iff.
      apply Z.bits_above_log2.
      * unfold Z.lnot. lia.
      * apply Z.log2_lt_pow2; unfold Z.lnot; [lia|].
        assert (2 ^ 63 <= 2 ^ i) by (apply Z.pow_le_mono_r; lia). lia.
  - destruct (Z.eq_dec z 0). { subst. apply Z.bits_0. }
    apply Z.bits_above_log2; [lia|].
    apply Z.log2_lt_pow2; [lia|].
    assert (2 ^ 63 <= 2 ^ i) by (apply Z.pow_le_mono_r; lia). lia.
Qed.

Lemma word_iff_bits z : (forall i, 63 <= i -> Z.testbit z i = Z.testbit z 63) ->
  - 2 ^ 63 <= z < 2 ^ 63.
Proof.
  intros H.
  assert (S : forall i, 63 <= i -> Z.testbit z i = (z <? 0)).
  { destruct (Z.testbit z 63) eqn:E.
    - assert (z < 0). { apply Z.bits_iff_neg_ex. exists 62. intros m Hm.
                        rewrite H by lia. reflexivity. }
      intros i Hi. rewrite H by auto. symmetry. apply Z.ltb_lt; auto.
    - assert (0 <= z). { apply Z.bits_iff_nonneg_ex. exists 62. intros m Hm.
                        rewrite H by lia. reflexivity. }
      intros i Hi. rewrite H by auto. symmetry. apply Z.ltb_ge; auto. }
  destruct (Z.ltb_spec z 0) as [Hn|Hp].
  - split; [|lia].
    destruct (Z.le_gt_cases (- 2 ^ 63) z) as [|C]; auto. exfalso.
    assert (Hl : 0 < Z.lnot z) by (unfold Z.lnot; lia).
    assert (63 <= Z.log2 (Z.lnot z)).
    { apply Z.log2_le_pow2; [auto|unfold Z.lnot; lia]. }
    pose proof (Z.bit_log2 _ Hl) as B. rewrite Z.lnot_spec in B by lia.
    rewrite S in B by auto. discriminate.
  - split; [lia|].
    destruct (Z.lt_ge_cases z (2 ^ 63)) as [|C]; auto. exfalso.
    assert (Hl : 0 < z) by lia.
    assert (63 <= Z.log2 z) by (apply Z.log2_le_pow2; auto).
    pose proof (Z.bit_log2 _ Hl) as B. rewrite S in B by auto. discriminate.
Qed.

Lemma land_word x y : - 2 ^ 63 <= x < 2 ^ 63 -> - 2 ^ 63 <= y < 2 ^ 63 ->
  - 2 ^ 63 <= Z.land x y < 2 ^ 63.
Proof.
  intros Hx Hy. apply word_iff_bits. intros i Hi. rewrite !Z.land_spec.
  rewrite !testbit_high by (auto; lia). reflexivity.
Qed.
Lemma lxor_word x y : - 2 ^ 63 <= x < 2 ^ 63 -> - 2 ^ 63 <= y < 2 ^ 63 ->
  - 2 ^ 63 <= Z.lxor x y < 2 ^ 63.
Proof.
  intros Hx Hy. apply word_iff_bits. intros i Hi. rewrite !Z.lxor_spec.
  rewrite !testbit_high by (auto; lia). reflexivity.
Qed.

Lemma and_ok m a b x y :
  valid m a -> valid m b -> int_val a = Some x -> int_val b = Some y ->
  exists z, answers_int m (send1 m a "&" b) z
    /\ forall i, Z.testbit z i = Z.testbit x i && Z.testbit y i.
Proof.
  intros Va Vb Ha Hb. rewrite (send1_int _ _ _ _ _ Ha). simpl.
  exists (Z.land x y). split; [|intros; apply Z.land_spec].
  destruct a; simpl in Ha; inversion Ha; subst; clear Ha;
  destruct b; simpl in Hb; inversion Hb; subst; clear Hb; simpl; unfold answers_int.
  - exists (VInt (Z.land x y)). repeat split; simpl; destruct m; simpl in *; auto.
    apply land_word; auto.
  - exists (VBig (Z.land x y)). destruct m; [|destruct Vb]. auto.
  - exists (VBig (Z.land x y)). destruct m; [|destruct Va]. auto.
  - exists (VBig (Z.land x y)). destruct m; [|destruct Va]. auto.
Qed.

Lemma xor_ok m x y :
  valid m (VInt x) -> valid m (VInt y) ->
  exists z, answers_int m (send1 m (VInt x) "bitXor:" (VInt y)) z
    /\ forall i, Z.testbit z i = xorb (Z.testbit x i) (Z.testbit y i).
Proof.
  intros Va Vb. exists (Z.lxor x y). split; [|intros; apply Z.lxor_spec].
  unfold send1; simpl. exists (VInt (Z.lxor x y)).
  repeat split; simpl; destruct m; simpl in *; auto. apply lxor_word; auto.
Qed.

Lemma shl_ok m x n :
  valid m (VInt x) -> valid m (VInt n) -> 0 <= n ->
  (m = Hosted -> n < 2 ^ 63) ->
  answers_int m (send1 m (VInt x) "<<" (VInt n)) (x * 2 ^ n).
Proof.
  intros Va Vb Hn Hh. unfold send1; simpl. unfold p_left_shift; simpl.
  rewrite <- Z.shiftl_mul_pow2 by auto.
  assert (Hlt : (n <? 0) = false) by (apply Z.ltb_ge; auto).
  rewrite Hlt. unfold answers_int.
  destruct m; simpl in *.
  - destruct (negb _) eqn:E.
    + exists (VBig (Z.shiftl x n)). simpl. auto.
    + destruct (fits_word (Z.shiftl x n)) eqn:F.
      * apply fits_word_spec in F. exists (VInt (Z.shiftl x n)). simpl. auto.
      * exists (VBig (Z.shiftl x n)). simpl. auto.
  - specialize (Hh eq_refl).
    assert (E : (x =? 0) || ((0 <=? n) && (n <? long_bit Hosted)) = true).
    { apply orb_true_iff; right. apply andb_true_iff.
      split; [apply Z.leb_le|apply Z.ltb_lt]; auto. }
    simpl in E. rewrite E. simpl.
    exists (VInt (Z.shiftl x n)). simpl. auto.
Qed.

Lemma shl_negative m x n : n < 0 -> x <> 0 -> fails (send1 m (VInt x) "<<" (VInt n)).
Proof.
  intros Hn Hx v. unfold send1; simpl. unfold p_left_shift; simpl.
  assert (Hlt : (n <? 0) = true) by (apply Z.ltb_lt; auto). rewrite Hlt.
  assert (E : (x =? 0) || ((0 <=? n) && (n <? long_bit m)) = false).
  { apply orb_false_iff. split; [apply Z.eqb_neq; auto|].
    apply andb_false_iff; left. apply Z.leb_gt; auto. }
  rewrite E. simpl. discriminate.
Qed.

Lemma ushr_ok x n :
  valid Translated (VInt x) -> 0 <= n < 64 ->
  exists z, answers_int Translated (send1 Translated (VInt x) ">>>" (VInt n)) z
    /\ z mod 2 ^ 64 = (x mod 2 ^ 64) / 2 ^ n.
Proof.
  intros Va Hn. unfold send1; simpl. unfold unsigned_right_shift.
  assert (E : (0 <=? n) && (n <? 64) = true).
  { apply andb_true_iff; split; [apply Z.leb_le|apply Z.ltb_lt]; lia. }
  rewrite E. simpl. exists (wrap_word (Z.shiftr (x mod 2 ^ 64) n)). split.
  - eexists. split; [reflexivity|]. split; [reflexivity|]. apply wrap_word_range.
  - rewrite wrap_word_mod. rewrite Z.shiftr_div_pow2 by lia.
    apply Z.mod_small.
    pose proof (Z.mod_pos_bound x (2 ^ 64) ltac:(lia)).
    assert (0 < 2 ^ n) by (apply Z.pow_pos_nonneg; lia).
    split; [apply Z.div_pos; lia|].
    apply Z.div_lt_upper_bound; nia.
Qed.

Lemma land_ones32 z : Z.land z 4294967295 = z mod 2 ^ 32.
Proof. change 4294967295 with (Z.ones 32). apply Z.land_ones. lia. Qed.
Lemma land_ones31 z : Z.land z 2147483647 = z mod 2 ^ 31.
Proof. change 2147483647 with (Z.ones 31). apply Z.land_ones. lia. Qed.
Lemma land_bit31 z : (Z.land z 2147483648 =? 2147483648) = Z.testbit z 31.
Proof.
  assert (E : Z.land z 2147483648 = if Z.testbit z 31 then 2 ^ 31 else 0).
  { change 2147483648 with (2 ^ 31). apply Z.bits_inj'. intros i Hi.
    rewrite Z.land_spec, Z.pow2_bits_eqb by lia.
    destruct (Z.eqb_spec 31 i).
    - subst. rewrite andb_true_r. destruct (Z.testbit z 31).
      + rewrite Z.pow2_bits_true by lia. reflexivity.
      + rewrite Z.bits_0. reflexivity.
    - rewrite andb_false_r. destruct (Z.testbit z 31).
      + rewrite Z.pow2_bits_false by lia. reflexivity.
      + rewrite Z.bits_0. reflexivity. }
  rewrite E. destruct (Z.testbit z 31); reflexivity.
Qed.

Lemma mod32_split z : z mod 2 ^ 32 = z mod 2 ^ 31 + (if Z.testbit z 31 then 2 ^ 31 else 0).
Proof.
  change (2 ^ 32) with (2 ^ 31 * 2).
  rewrite Z.rem_mul_r by lia.
  pose proof (Z.testbit_spec' z 31 ltac:(lia)) as E.
  rewrite <- E. destruct (Z.testbit z 31); simpl Z.b2z; lia.
Qed.

Lemma signed32_spec m z :
  let r := as_32_bit_signed_value m z in
  - 2 ^ 31 <= r < 2 ^ 31 /\ r mod 2 ^ 32 = z mod 2 ^ 32.
Proof.
  destruct m; cbv zeta.
  - unfold as_32_bit_signed_value. pose proof (Z.mod_pos_bound (z + 2 ^ 31) (2 ^ 32) ltac:(lia)).
    split; [lia|]. rewrite Zminus_mod_idemp_l. f_equal. lia.
  - unfold as_32_bit_signed_value.
    rewrite land_bit31, land_ones31, (mod32_split z).
    pose proof (Z.mod_pos_bound z (2 ^ 31) ltac:(lia)).
    destruct (Z.testbit z 31); cbv iota.
    + split; [lia|].
      replace (0 - (2147483648 - z mod 2 ^ 31)) with (z mod 2 ^ 31 + 2 ^ 31 + (-1) * 2 ^ 32) by lia.
            rewrite (Z.mod_add (z mod 2 ^ 31 + 2 ^ 31) (-1) (2 ^ 32)) by lia. apply Z.mod_small. lia.
    + split; [lia|]. rewrite Z.mod_small; lia.
Qed.

Lemma unsigned32_spec m z :
  let r := as_32_bit_unsigned_value m z in
  0 <= r < 2 ^ 32 /\ r mod 2 ^ 32 = z mod 2 ^ 32.
Proof.
  assert (H : as_32_bit_unsigned_value m z = z mod 2 ^ 32).
  { destruct m; simpl; [reflexivity|apply land_ones32]. }
  cbv zeta. rewrite H. pose proof (Z.mod_pos_bound z (2 ^ 32) ltac:(lia)).
  split; [lia|]. apply Z.mod_mod. lia.
Qed.

Lemma to_32_ok m x : valid m (VInt x) ->
  (exists s, answers_int m (send0 m (VInt x) "as32BitSignedValue") s
     /\ - 2 ^ 31 <= s < 2 ^ 31 /\ s mod 2 ^ 32 = x mod 2 ^ 32)
  /\ (exists u, answers_int m (send0 m (VInt x) "as32BitUnsignedValue") u
     /\ 0 <= u < 2 ^ 32 /\ u mod 2 ^ 32 = x mod 2 ^ 32).
Proof.
  intros _. unfold send0, answers_int. simpl.
  pose proof (signed32_spec m x) as [S1 S2]. pose proof (unsigned32_spec m x) as [U1 U2].
  split.
  - eexists. split; [|split; [exact S1|exact S2]].
    eexists. split; [reflexivity|]. split; [reflexivity|].
    destruct m; [unfold valid|exact I].
    generalize dependent (as_32_bit_signed_value Translated x); intros; lia.
  - eexists. split; [|split; [exact U1|exact U2]].
    eexists. split; [reflexivity|]. split; [reflexivity|].
    destruct m; [unfold valid|exact I].
    generalize dependent (as_32_bit_unsigned_value Translated x); intros; lia.
Qed.

(** ** mixed arithmetic *)
Definition coercing (m : mode) : list string :=
  ["+"; "-"; "*"; "//"; "%"; "<"; "<="; ">"; ">="]%string ++
  match m with Translated => ["="; "<>"; "~="]%string | Hosted => [] end.

Lemma mixed_left m a x f d sel : int_val a = Some x ->
  send0 m a "asDouble" = Ok (VDbl f) -> In sel (coercing m) ->
  send1 m a sel (VDbl d) = send1 m (VDbl f) sel (VDbl d).
Proof.
  intros Ha Hf Hs. unfold send0 in Hf.
  destruct a; simpl in Ha; inversion Ha; subst; clear Ha; simpl in Hf.
  - destruct (int_tofloat m x) as [g|] eqn:G; simpl in Hf; inversion Hf; subst; clear Hf.
    unfold coercing in Hs. rewrite in_app_iff in Hs.
    destruct Hs as [Hs|Hs].
    + repeat (destruct Hs as [<-|Hs]; [unfold send1; simpl; unfold num_less_than; simpl;
        unfold int_to_double; rewrite G; simpl; reflexivity|]). destruct Hs.
    + destruct m; [|destruct Hs]. simpl in G. inversion G; subst.
      repeat (destruct Hs as [<-|Hs]; [reflexivity|]). destruct Hs.
  - destruct (big_tofloat x) as [g|] eqn:G; simpl in Hf; inversion Hf; subst; clear Hf.
    unfold coercing in Hs. rewrite in_app_iff in Hs.
    destruct Hs as [Hs|Hs].
    + repeat (destruct Hs as [<-|Hs]; [unfold send1; simpl; unfold num_less_than; simpl;
        unfold big_to_double; rewrite G; simpl; reflexivity|]). destruct Hs.
    + destruct m; [|destruct Hs].
      repeat (destruct Hs as [<-|Hs]; [unfold send1; simpl; rewrite G; reflexivity|]). destruct Hs.
Qed.

Lemma mixed_right m a x f d sel : int_val a = Some x ->
  send0 m a "asDouble" = Ok (VDbl f) ->
  In sel (["+"; "-"; "*"; "//"; "%"; "<"; "<="; ">"; ">="; "="; "<>"; "~="])%string ->
  send1 m (VDbl d) sel a = send1 m (VDbl d) sel (VDbl f).
Proof.
  intros Ha Hf Hs. unfold send0 in Hf.
  assert (G : get_float m a = Ok f).
  { destruct a; simpl in Ha; inversion Ha; subst; clear Ha; simpl in *;
    [destruct (int_tofloat m x)|destruct (big_tofloat x)]; simpl in Hf; inversion Hf; reflexivity. }
  clear Hf.
  repeat (destruct Hs as [<-|Hs]; [unfold send1; simpl; unfold num_less_than,
    dbl_add, dbl_subtract, dbl_multiply, dbl_double_div, dbl_modulo, prim_less_than, dbl_less_than,
    dbl_less_than_or_equal, dbl_greater_than, dbl_greater_than_or_equal, dbl_equals,
    dbl_unequals; rewrite G; simpl; reflexivity|]). destruct Hs.
Qed.

(** ** equality *)
Lemma Pos_compare_cont_refl p : Pos.compare_cont Eq p p = Eq.
Proof. change (Pos.compare p p = Eq). apply Pos.compare_refl. Qed.

Lemma SFcompare_refl f : f <> S754_nan -> SFcompare f f = Some Eq.
Proof.
  destruct f as [s|s| |s m e]; intros H; simpl; auto.
  - destruct s; auto.
  - congruence.
  - rewrite Z.compare_refl, Pos_compare_cont_refl. destruct s; reflexivity.
Qed.

Lemma SFcompare_antisym a b :
  SFcompare b a = match SFcompare a b with Some c => Some (CompOpp c) | None => None end.
Proof.
  destruct a as [s|s| |s m e], b as [s'|s'| |s' m' e']; simpl; auto;
    try (destruct s; reflexivity); try (destruct s'; reflexivity);
    try (destruct s, s'; reflexivity).
  destruct s, s'; simpl; auto.
  - rewrite (Z.compare_antisym e e'). destruct (e ?= e') eqn:E; simpl; auto.
    change (Pos.compare_cont Eq m' m) with (Pos.compare m' m).
    change (Pos.compare_cont Eq m m') with (Pos.compare m m').
    rewrite (Pos.compare_antisym m m'). reflexivity.
  - rewrite (Z.compare_antisym e e'). destruct (e ?= e') eqn:E; simpl; auto.
    change (Pos.compare_cont Eq m' m) with (Pos.compare m' m).
    change (Pos.compare_cont Eq m m') with (Pos.compare m m').
    rewrite (Pos.compare_antisym m m'). reflexivity.
Qed.

Lemma feq_sym a b : feq a b = feq b a.
Proof.
  unfold feq, SFeqb. rewrite (SFcompare_antisym a b).
  destruct (SFcompare a b) as [[]|]; reflexivity.
Qed.
Lemma feq_refl a : a <> S754_nan -> feq a a = true.
Proof. intros H. unfold feq, SFeqb. rewrite SFcompare_refl by auto. reflexivity. Qed.

Lemma eq_sym_num a b : is_number a -> is_number b ->
  send1 Translated a "=" b = send1 Translated b "=" a.
Proof.
  destruct a; intros Ha; try destruct Ha; destruct b; intros Hb; try destruct Hb;
    unfold send1; simpl; unfold dbl_equals; simpl; rewrite ?(Z.eqb_sym z); auto.
  - rewrite feq_sym. reflexivity.
  - destruct (big_tofloat z); simpl; auto. rewrite feq_sym; reflexivity.
  - rewrite feq_sym. reflexivity.
  - destruct (big_tofloat z); simpl; auto. rewrite feq_sym; reflexivity.
  - rewrite feq_sym. reflexivity.
Qed.

Lemma eq_refl_num m a : is_number a -> a <> VDbl S754_nan -> send1 m a "=" a = Ok VTrue.
Proof.
  destruct a; intros Ha Hn; try destruct Ha; unfold send1; simpl.
  - rewrite Z.eqb_refl; auto.
  - rewrite Z.eqb_refl; auto.
  - unfold dbl_equals; simpl. rewrite feq_refl; auto. congruence.
Qed.

Lemma eq_trans_int m a b c : (exists x, int_val a = Some x) -> (exists x, int_val b = Some x) ->
  (exists x, int_val c = Some x) ->
  send1 m a "=" b = Ok VTrue -> send1 m b "=" c = Ok VTrue -> send1 m a "=" c = Ok VTrue.
Proof.
  intros [x Ha] [y Hb] [z Hc] H1 H2.
  destruct (eq_ok m a b x y Ha Hb) as [[_ E1]|[E1 _]]; [|congruence].
  destruct (eq_ok m b c y z Hb Hc) as [[_ E2]|[E2 _]]; [|congruence].
  destruct (eq_ok m a c x z Ha Hc) as [[E3 _]|[_ E3]]; [auto|lia].
Qed.

(** ** min, max, abs *)
Lemma min_ok m a b x y : int_val a = Some x -> int_val b = Some y ->
  exists v, send1 m a "min:" b = Ok v /\ (v = a \/ v = b) /\ int_val v = Some (Z.min x y).
Proof.
  intros Ha Hb. rewrite (send1_int _ _ _ _ _ Ha). simpl. unfold num_min.
  assert (E : prim_less_than m a b = Ok (x <? y)).
  { destruct a; simpl in Ha; inversion Ha; subst; destruct b; simpl in Hb; inversion Hb; subst; reflexivity. }
  rewrite E. simpl. destruct (Z.ltb_spec x y).
  - exists a. rewrite Z.min_l by lia. auto.
  - exists b. rewrite Z.min_r by lia. auto.
Qed.
Lemma max_ok m a b x y : int_val a = Some x -> int_val b = Some y ->
  exists v, send1 m a "max:" b = Ok v /\ (v = a \/ v = b) /\ int_val v = Some (Z.max x y).
Proof.
  intros Ha Hb. rewrite (send1_int _ _ _ _ _ Ha). simpl. unfold num_max.
  assert (E : prim_less_than m a b = Ok (x <? y)).
  { destruct a; simpl in Ha; inversion Ha; subst; destruct b; simpl in Hb; inversion Hb; subst; reflexivity. }
  rewrite E. simpl. destruct (Z.ltb_spec x y).
  - exists b. rewrite Z.max_r by lia. auto.
  - exists a. rewrite Z.max_l by lia. auto.
Qed.
Lemma abs_ok m a x : valid m a -> int_val a = Some x ->
  ~ (m = Translated /\ a = VInt (- 2 ^ 63)) ->
  answers_int m (send0 m a "abs") (Z.abs x).
Proof.
  intros Va Ha Hn. unfold send0, answers_int.
  destruct a; simpl in Ha; inversion Ha; subst; simpl.
  - exists (VInt (Z.abs x)). destruct m; simpl in *.
    + assert (x <> - 2 ^ 63) by (intros ->; apply Hn; auto).
      unfold int_abs, unchecked. rewrite wrap_word_id by lia. repeat split; lia.
    + auto.
  - exists (VBig (Z.abs x)). destruct m; [|destruct Va]. auto.
Qed.

(** ** to: *)
Lemma zrange_spec n lo : zrange lo n = map (fun k => lo + Z.of_nat k) (seq 0 n).
Proof.
  revert lo. induction n; intros; simpl; auto.
  f_equal; [lia|]. rewrite IHn, <- seq_shift, map_map. apply map_ext. intros; lia.
Qed.
Lemma to_ok m a b : valid m (VInt a) -> valid m (VInt b) ->
  ~ (m = Translated /\ b = 2 ^ 63 - 1) ->
  exists l, p_to m (VInt a) (VInt b) = Ok l
    /\ Z.of_nat (length l) = Z.max 0 (b - a + 1)
    /\ forall k, (k < length l)%nat -> nth_error l k = Some (a + Z.of_nat k).
Proof.
  intros Va Vb Hn. simpl.
  assert (E : unchecked m (b + 1) = b + 1).
  { destruct m; simpl in *; auto. apply wrap_word_id.
    assert (b <> 2 ^ 63 - 1) by (intros E; apply Hn; auto). lia. }
  rewrite E. eexists. split; [reflexivity|].
  rewrite zrange_spec, map_length, seq_length. split; [lia|].
  intros k Hk. rewrite nth_error_map.
  rewrite (nth_error_nth' _ 0%nat) by (rewrite seq_length; lia).
  rewrite seq_nth by lia. reflexivity.
Qed.
