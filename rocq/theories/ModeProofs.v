From Coq Require Import ZArith Bool String List Ascii Lia Floats.SpecFloat.
From Verif Require Import Base NumSpec NumModel NtxSpec NtxModel NtxProps DblSpec NumProofs DblProofs DblRound DblArith DblSqrt ModeSpec.
Import ListNotations.
Open Scope Z_scope.

(** * Conversions *)
Lemma word_scale z : - 2 ^ 63 <= z < 2 ^ 63 -> Z.abs (z * unit_scale) <= largest.
Proof.
  intros H. pose proof scale_pos as S. rewrite Z.abs_mul, (Z.abs_eq unit_scale) by lia.
  apply Z.le_trans with (2 ^ 63 * unit_scale); [apply Z.mul_le_mono_nonneg_r; lia|].
  unfold unit_scale, largest. vm_compute. discriminate.
Qed.
Lemma word_tofloat z : - 2 ^ 63 <= z < 2 ^ 63 -> big_tofloat z = Ok (float_of_Z z).
Proof.
  intros H. unfold big_tofloat. pose proof (word_scale z H) as L.
  destruct (got _ _ (int_rounded z)) as [(v & B & U & _)|[E G]]; [|lia].
  destruct (float_of_Z z); try discriminate U; reflexivity.
Qed.
Lemma nonzero_tofloat z s : z <> 0 -> float_of_Z z <> S754_zero s.
Proof.
  intros N E. pose proof scale_pos as S.
  destruct (got _ _ (int_rounded z)) as [(v & B & U & _ & _ & N1 & N2)|[E' G]]; [|congruence].
  rewrite E in U. injection U as <-.
  assert (F : fits unit_scale) by (exists 1, 0; split; [lia|]; split; [lia|reflexivity]).
  assert (X : unit_scale <= Z.abs (z * unit_scale)) by (rewrite Z.abs_mul, (Z.abs_eq unit_scale) by lia; nia).
  first [pose proof (N1 _ F X)|pose proof (N2 _ F X)]; cbn in *; lia.
Qed.
Lemma exact_equal z f : binary64 f -> - 2 ^ 53 <= z <= 2 ^ 53 -> int_eq_float Translated z f = exact_eq z f.
Proof.
  intros B H. destruct (int_exact z H) as [Bz Uz]. cbn [int_eq_float].
  destruct f as [s|s| |s m e].
  - rewrite (feq_units _ _ _ 0 Bz B Uz eq_refl). cbn [exact_eq]. pose proof scale_pos.
    destruct (Z.eqb_spec z 0) as [->|N]; [reflexivity|]. apply Z.eqb_neq. nia.
  - cbn [exact_eq]. destruct (float_of_Z z) as [?|?| |[] ? ?]; try discriminate Uz; destruct s; reflexivity.
  - cbn [exact_eq]. destruct (float_of_Z z) as [?|?| |[] ? ?]; try discriminate Uz; reflexivity.
  - rewrite (feq_units _ _ _ _ Bz B Uz eq_refl). cbn [exact_eq].
    destruct B as (B1 & B2 & B3). unfold unit_scale.
    assert (C : forall p, cond_Zopp s p = (if s then -1 else 1) * p) by (intros; destruct s; cbn [cond_Zopp]; lia).
    rewrite !C. set (k := (if s then -1 else 1)). destruct (Z.leb_spec 0 e).
    + rewrite pow_split by lia. assert (P := pow_pos 1074 ltac:(lia)).
      set (w := 2 ^ 1074) in *. set (y := 2 ^ e).
      replace (k * Zpos m * (y * w)) with (k * (Zpos m * y) * w) by ring.
      apply eq_true_iff_eq. rewrite !Z.eqb_eq. split; [intros; apply (Z.mul_reg_r _ _ w); lia|intros ->; reflexivity].
    + assert (E : 2 ^ 1074 = 2 ^ (- e) * 2 ^ (e + 1074)) by (rewrite <- pow_split by lia; f_equal; lia).
      rewrite E. assert (P := pow_pos (e + 1074) ltac:(lia)). set (w := 2 ^ (e + 1074)) in *. set (y := 2 ^ (- e)).
      apply eq_true_iff_eq. rewrite !Z.eqb_eq. rewrite Z.mul_assoc.
      split; [intros; apply (Z.mul_reg_r _ _ w); lia|intros ->; reflexivity].
Qed.

(** * Related values *)
Lemma same_cases a a' : same_value a a' ->
  (exists z, a = VInt z /\ a' = VInt z /\ - 2 ^ 63 <= z < 2 ^ 63) \/
  (exists z, a = VBig z /\ a' = VInt z) \/ (int_val a = None /\ a' = a).
Proof.
  intros (V & W & E). destruct a; cbn [int_val] in E; try (right; right; split; [reflexivity|exact E]).
  - left. exists z. destruct a'; try discriminate E; [|destruct W]. injection E as ->. auto.
  - right. left. exists z. destruct a'; try discriminate E; [|destruct W]. injection E as ->. auto.
Qed.
Lemma same_int z : - 2 ^ 63 <= z < 2 ^ 63 -> same_value (VInt z) (VInt z).
Proof. intros H. split; [exact H|]. split; [exact I|reflexivity]. Qed.
Lemma same_big z : same_value (VBig z) (VInt z).
Proof. split; [exact I|]. split; [exact I|reflexivity]. Qed.
Lemma same_other v : int_val v = None -> same_value v v.
Proof. intros H. destruct v; try discriminate H; (split; [exact I|split; [exact I|reflexivity]]). Qed.
Lemma both_fail (r r' : res value) e e' : r = Err e -> r' = Err e' -> same_outcome r r'.
Proof. intros -> ->. right. split; intros v; discriminate. Qed.
Lemma both_ok v w : same_value v w -> same_outcome (Ok v) (Ok w).
Proof. intros H. left. eauto. Qed.
Lemma both_int r r' z : answers_int Translated r z -> answers_int Hosted r' z -> same_outcome r r'.
Proof.
  intros (v & -> & I1 & V1) (w & -> & I2 & V2). left. exists v, w. split; auto. split; auto.
  split; auto. split; auto. rewrite I1. exact I2.
Qed.
Lemma both_bool r r' P : answers_bool r P -> answers_bool r' P -> same_outcome r r'.
Proof.
  intros [[-> H]|[-> H]] [[-> H']|[-> H']]; try contradiction; apply both_ok, same_other; reflexivity.
Qed.
Lemma equal_outcome r r' : r = r' -> (forall v, r = Ok v -> int_val v = None) -> same_outcome r r'.
Proof.
  intros <- H. destruct r as [v|e]; [|eapply both_fail; reflexivity]. apply both_ok, same_other. auto.
Qed.
Lemma float_same b b' : same_value b b' -> get_float Translated b = get_float Hosted b'.
Proof.
  intros H. destruct (same_cases _ _ H) as [(z & -> & -> & R)|[(z & -> & ->)|[N ->]]]; cbn [get_float].
  - symmetry. apply (word_tofloat z R).
  - reflexivity.
  - destruct b; try discriminate N; reflexivity.
Qed.
Lemma valid_same a a' : same_value a a' -> valid Translated a /\ valid Hosted a'.
Proof. intros (V & W & _). auto. Qed.

Ltac dbl_outcome :=
  apply equal_outcome;
  [ | let v := fresh in let E := fresh in intros v E;
      repeat match type of E with
      | bind ?x _ = Ok _ => destruct x; cbn [bind] in E; [|discriminate E]
      end; injection E as <-;
      try match goal with |- int_val (som_bool ?b) = _ => destruct b end; reflexivity ].

(** An operation that agrees on integers and goes through double arithmetic otherwise. *)
Lemma mixed (op : mode -> value -> value -> res value) (dop : mode -> spec_float -> value -> res value) a a' b b' :
  same_value a a' -> same_value b b' -> is_number a ->
  (forall x y, int_val a = Some x -> int_val b = Some y -> int_val a' = Some x -> int_val b' = Some y ->
     same_outcome (op Translated a b) (op Hosted a' b')) ->
  (forall m f b, op m (VDbl f) b = dop m f b) ->
  (forall m z f, b = VDbl f -> op m (VInt z) (VDbl f) = (g <- int_tofloat m z ;; dop m g (VDbl f))) ->
  (forall m z f, b = VDbl f -> a = VBig z -> op m (VBig z) (VDbl f) = (g <- big_tofloat z ;; dop m g (VDbl f))) ->
  (int_val b = None -> ~ double b -> integer a -> same_outcome (op Translated a b) (op Hosted a' b)) ->
  (forall f, same_outcome (dop Translated f b) (dop Hosted f b')) ->
  same_outcome (op Translated a b) (op Hosted a' b').
Proof.
  intros Ha Hb Na Hint Hd Hi Hbg Hf Hdd.
  assert (D : forall f, a = VDbl f -> same_outcome (op Translated a b) (op Hosted a' b')).
  { intros f ->. destruct (same_cases _ _ Ha) as [(z & X & _)|[(z & X & _)|[_ ->]]]; try discriminate X. rewrite !Hd. auto. }
  assert (J : forall z, int_val a = Some z -> same_outcome (op Translated a b) (op Hosted a' b')).
  { intros x Ia. assert (Ia' : int_val a' = Some x) by (destruct Ha as (_ & _ & E); rewrite Ia in E; exact E).
    destruct (int_val b) as [y|] eqn:Ib.
    - assert (Ib' : int_val b' = Some y) by (destruct Hb as (_ & _ & E); rewrite Ib in E; exact E). eauto.
    - destruct (same_cases _ _ Hb) as [(w & -> & _)|[(w & -> & _)|[_ ->]]]; try discriminate Ib.
      assert (Na' : integer a) by (unfold integer; congruence).
      destruct b as [| | | | |f| | |]; try discriminate Ib;
        try (apply Hf; [reflexivity|intros [? X]; discriminate X|exact Na']).
      destruct (same_cases _ _ Ha) as [(z & -> & -> & R)|[(z & -> & ->)|[N _]]]; [| |congruence].
      + rewrite !Hi by reflexivity. cbn [int_tofloat]. rewrite (word_tofloat z R). cbn [bind]. auto.
      + rewrite Hi, Hbg by reflexivity. cbn [int_tofloat]. destruct (big_tofloat z); cbn [bind]; [auto|eapply both_fail; reflexivity]. }
  destruct a as [| | |z|z|f| | |]; try destruct Na; [apply (J z)|apply (J z)|apply (D f)]; reflexivity.
Qed.
Section Arith.
Context (a a' b b' : value) (Ha : same_value a a') (Hb : same_value b b') (Na : is_number a).
Let Va := proj1 (valid_same _ _ Ha).
Let Va' := proj2 (valid_same _ _ Ha).
Let Vb := proj1 (valid_same _ _ Hb).
Let Vb' := proj2 (valid_same _ _ Hb).
Local Ltac other := intros Ib Nb Ia;
  (destruct (same_cases _ _ Ha) as [(? & -> & -> & ?)|[(? & -> & ->)|[? _]]]; [| |contradiction]);
  (destruct b as [| | | | |fb| | |]; try discriminate Ib; try (exfalso; apply Nb; exists fb; reflexivity));
  eapply both_fail; reflexivity.
Local Ltac ints L := intros x y Ia Ib Ia' Ib';
  eapply both_int; [apply (L Translated a b x y)|apply (L Hosted a' b' x y)]; auto.
Local Ltac bools L := intros x y Ia Ib Ia' Ib';
  eapply both_bool; [apply (L Translated a b x y)|apply (L Hosted a' b' x y)]; auto.
Local Ltac go d := apply (mixed _ d a a' b b' Ha Hb Na); [ |reflexivity|reflexivity|reflexivity|other| ].

Lemma exactly_op op f : exact_op op f -> forall x y, int_val a = Some x -> int_val b = Some y -> int_val a' = Some x -> int_val b' = Some y ->
  same_outcome (op Translated a b) (op Hosted a' b').
Proof.
  intros L x y Ia Ib Ia' Ib'.
  destruct (L Translated a b x y Va Vb Ia Ib) as (v & E & I1 & V1 & _).
  destruct (L Hosted a' b' x y Va' Vb' Ia' Ib') as (w & E' & I2 & V2 & _).
  apply both_int with (f x y); [exists v|exists w]; auto.
Qed.
Lemma add_agree : same_outcome (prim_add Translated a b) (prim_add Hosted a' b').
Proof.
  go dbl_add; [apply (exactly_op _ _ add_exact)|].
  intros f. unfold dbl_add. rewrite <- (float_same _ _ Hb). dbl_outcome; reflexivity.
Qed.
Lemma subtract_agree : same_outcome (prim_subtract Translated a b) (prim_subtract Hosted a' b').
Proof.
  go dbl_subtract; [apply (exactly_op _ _ sub_exact)|].
  intros f. unfold dbl_subtract. rewrite <- (float_same _ _ Hb). dbl_outcome; reflexivity.
Qed.
Lemma multiply_agree : same_outcome (prim_multiply Translated a b) (prim_multiply Hosted a' b').
Proof.
  go dbl_multiply; [apply (exactly_op _ _ mul_exact)|].
  intros f. unfold dbl_multiply. rewrite <- (float_same _ _ Hb). dbl_outcome; reflexivity.
Qed.

(** comparisons *)
Lemma less_agree : prim_less_than Translated a b = prim_less_than Hosted a' b' \/
  (fails (prim_less_than Translated a b) /\ fails (prim_less_than Hosted a' b')).
Proof.
  destruct (same_cases _ _ Ha) as [(x & -> & -> & R)|[(x & -> & ->)|[N ->]]];
  destruct (same_cases _ _ Hb) as [(y & -> & -> & Q)|[(y & -> & ->)|[N' ->]]]; try (left; reflexivity).
  - destruct b as [| | | | |fb| | |]; try discriminate N'; try (right; split; intros v; discriminate).
    left. cbn. rewrite (word_tofloat x R). reflexivity.
  - destruct b as [| | | | |fb| | |]; try discriminate N'; try (right; split; intros v; discriminate). left. reflexivity.
  - destruct a as [| | | | |fa| | |]; try discriminate N; try destruct Na. left. cbn [prim_less_than]. unfold dbl_less_than. rewrite (float_same _ _ Hb). reflexivity.
  - destruct a as [| | | | |fa| | |]; try discriminate N; try destruct Na. left. cbn [prim_less_than]. unfold dbl_less_than. rewrite (float_same _ _ Hb). reflexivity.
Qed.
Lemma lt_agree : same_outcome (num_less_than Translated a b) (num_less_than Hosted a' b').
Proof.
  unfold num_less_than. destruct less_agree as [E|[F F']].
  - rewrite <- E. destruct (prim_less_than Translated a b) as [[]|]; cbn [bind]; [apply both_ok, same_other; reflexivity..|eapply both_fail; reflexivity].
  - destruct (prim_less_than Translated a b) as [x|]; [destruct (F x eq_refl)|].
    destruct (prim_less_than Hosted a' b') as [x|]; [destruct (F' x eq_refl)|]. eapply both_fail; reflexivity.
Qed.
Lemma min_agree : same_outcome (num_min Translated a b) (num_min Hosted a' b').
Proof.
  unfold num_min. destruct less_agree as [E|[F F']].
  - rewrite <- E. destruct (prim_less_than Translated a b) as [[]|]; cbn [bind]; [apply both_ok; assumption..|eapply both_fail; reflexivity].
  - destruct (prim_less_than Translated a b) as [x|]; [destruct (F x eq_refl)|].
    destruct (prim_less_than Hosted a' b') as [x|]; [destruct (F' x eq_refl)|]. eapply both_fail; reflexivity.
Qed.
Lemma max_agree : same_outcome (num_max Translated a b) (num_max Hosted a' b').
Proof.
  unfold num_max. destruct less_agree as [E|[F F']].
  - rewrite <- E. destruct (prim_less_than Translated a b) as [[]|]; cbn [bind]; [apply both_ok; assumption..|eapply both_fail; reflexivity].
  - destruct (prim_less_than Translated a b) as [x|]; [destruct (F x eq_refl)|].
    destruct (prim_less_than Hosted a' b') as [x|]; [destruct (F' x eq_refl)|]. eapply both_fail; reflexivity.
Qed.
Lemma le_agree : same_outcome (prim_less_than_or_equal Translated a b) (prim_less_than_or_equal Hosted a' b').
Proof.
  go dbl_less_than_or_equal.
  - intros x y Ia Ib Ia' Ib'. apply both_bool with (x <= y).
    + pose proof (NumProofs.le_ok Translated a b x y Ia Ib) as L. rewrite (send1_int _ _ _ _ _ Ia) in L. exact L.
    + pose proof (NumProofs.le_ok Hosted a' b' x y Ia' Ib') as L. rewrite (send1_int _ _ _ _ _ Ia') in L. exact L.
  - intros f. unfold dbl_less_than_or_equal. rewrite <- (float_same _ _ Hb). dbl_outcome; reflexivity.
Qed.
Lemma gt_agree : same_outcome (prim_greater_than Translated a b) (prim_greater_than Hosted a' b').
Proof.
  go dbl_greater_than.
  - intros x y Ia Ib Ia' Ib'. apply both_bool with (x > y).
    + pose proof (gt_ok Translated a b x y Ia Ib) as L. rewrite (send1_int _ _ _ _ _ Ia) in L. exact L.
    + pose proof (gt_ok Hosted a' b' x y Ia' Ib') as L. rewrite (send1_int _ _ _ _ _ Ia') in L. exact L.
  - intros f. unfold dbl_greater_than. rewrite <- (float_same _ _ Hb). dbl_outcome; reflexivity.
Qed.
Lemma ge_agree : same_outcome (prim_greater_than_or_equal Translated a b) (prim_greater_than_or_equal Hosted a' b').
Proof.
  go dbl_greater_than_or_equal.
  - intros x y Ia Ib Ia' Ib'. apply both_bool with (x >= y).
    + pose proof (ge_ok Translated a b x y Ia Ib) as L. rewrite (send1_int _ _ _ _ _ Ia) in L. exact L.
    + pose proof (ge_ok Hosted a' b' x y Ia' Ib') as L. rewrite (send1_int _ _ _ _ _ Ia') in L. exact L.
  - intros f. unfold dbl_greater_than_or_equal. rewrite <- (float_same _ _ Hb). dbl_outcome; reflexivity.
Qed.

(** equality *)
Local Ltac cases := 
  destruct (same_cases _ _ Ha) as [(x0 & -> & -> & R)|[(x0 & -> & ->)|[N ->]]];
  [destruct (same_cases _ _ Hb) as [(y0 & -> & -> & Q)|[(y0 & -> & ->)|[N' ->]]];
   [| |destruct b as [| | | | |fb| | |]; try discriminate N']
  |destruct (same_cases _ _ Hb) as [(y0 & -> & -> & Q)|[(y0 & -> & ->)|[N' ->]]];
   [| |destruct b as [| | | | |fb| | |]; try discriminate N']
  |destruct a as [| | | | |fa| | |]; try discriminate N; try destruct Na].
Local Ltac plain := first
  [ eapply both_fail; reflexivity
  | apply both_ok, same_other; match goal with |- int_val (som_bool ?c) = _ => destruct c; reflexivity | _ => reflexivity end ].
Lemma equals_agree : (forall f, integer a -> b = VDbl f -> binary64 f /\ exists z, a = VInt z /\ - 2 ^ 53 <= z <= 2 ^ 53) ->
  same_outcome (prim_equals Translated a b) (prim_equals Hosted a' b') /\
  same_outcome (prim_unequals Translated a b) (prim_unequals Hosted a' b').
Proof.
  intros C. cases; cbn [prim_equals prim_unequals int_equals int_unequals big_equals big_unequals].
  all: try (split; [plain|plain]).
  - destruct (C fb) as (B & z & E & L); [discriminate|reflexivity|]. injection E as <-.
    rewrite (exact_equal _ _ B L). split; plain.
  - exfalso. destruct (C fb) as (B & z & E & L); [discriminate|reflexivity|discriminate E].
  - unfold dbl_equals, dbl_unequals. rewrite <- (float_same _ _ Hb). split; dbl_outcome; reflexivity.
Qed.
Lemma identical_agree : integer a -> same_outcome (int_equals_equals Translated a b) (int_equals_equals Hosted a' b').
Proof.
  intros Ia. cases; cbn [prim_equals int_equals big_equals int_equals_equals]; try plain. exfalso. apply Ia. reflexivity.
Qed.
(** bits *)
Lemma and_agree : (big a -> ~ double b) -> same_outcome (prim_and Translated a b) (prim_and Hosted a' b').
Proof.
  intros C. destruct (int_val a) as [x|] eqn:Ia; [destruct (int_val b) as [y|] eqn:Ib|].
  - pose proof (proj2 (proj2 Ha)) as Ia'. rewrite Ia in Ia'. pose proof (proj2 (proj2 Hb)) as Ib'. rewrite Ib in Ib'.
    assert (K : forall m v w, valid m v -> valid m w -> int_val v = Some x -> int_val w = Some y -> answers_int m (prim_and m v w) (Z.land x y)).
    { intros m v w Vv Vw Iv Iw. destruct v; try discriminate Iv; injection Iv as ->; destruct w; try discriminate Iw; injection Iw as ->;
        cbn [prim_and int_and big_and embedded_integer bind]; eexists; (split; [reflexivity|]); (split; [reflexivity|]);
        destruct m; try solve [exact I|destruct Vv|destruct Vw].
      apply land_word; cbn in Vv, Vw; lia. }
    apply both_int with (Z.land x y); apply K; auto.
  - cases; try discriminate Ia; try discriminate Ib; cbn [prim_and int_and big_and]; try plain.
    + destruct (int_to_double Translated x0), (int_to_double Hosted x0); eapply both_fail; reflexivity.
    + exfalso. apply C; [exists x0; reflexivity|exists fb; reflexivity].
  - cases; try discriminate Ia. eapply both_fail; reflexivity.
Qed.

(** division *)
Lemma exactly_int x y z op : (forall m v w, valid m v -> valid m w -> int_val v = Some x -> int_val w = Some y ->
    (m = Translated -> v = a /\ w = b) -> answers_int m (op m v w) z) ->
  int_val a = Some x -> int_val b = Some y -> same_outcome (op Translated a b) (op Hosted a' b').
Proof.
  intros K Ia Ib. pose proof (proj2 (proj2 Ha)) as Ia'. rewrite Ia in Ia'. pose proof (proj2 (proj2 Hb)) as Ib'. rewrite Ib in Ib'.
  apply both_int with z; apply K; auto. discriminate.
Qed.
Lemma failing x y op : (forall m v w, int_val v = Some x -> int_val w = Some y -> fails (op m v w)) ->
  int_val a = Some x -> int_val b = Some y -> same_outcome (op Translated a b) (op Hosted a' b').
Proof.
  intros K Ia Ib. pose proof (proj2 (proj2 Ha)) as Ia'. rewrite Ia in Ia'. pose proof (proj2 (proj2 Hb)) as Ib'. rewrite Ib in Ib'.
  right. split; eapply K; eauto.
Qed.
Local Ltac nonint := intros Ib Nb Ia;
  (destruct (same_cases _ _ Ha) as [(? & -> & -> & ?)|[(? & -> & ->)|[? _]]]; [| |contradiction]);
  (destruct b as [| | | | |fb| | |]; try discriminate Ib; try (exfalso; apply Nb; exists fb; reflexivity));
  eapply both_fail; reflexivity.
Lemma slash_agree : integer a -> ~ smallest_by_minus_one a b -> ~ double b ->
  same_outcome (prim_int_div Translated a b) (prim_int_div Hosted a' b').
Proof.
  intros Ia S D. destruct (int_val a) as [x|] eqn:Ea; [|contradiction]. destruct (int_val b) as [y|] eqn:Eb.
  - destruct (Z.eq_dec y 0) as [->|Y].
    + apply failing with x 0; auto. intros m v w Iv Iw.
      pose proof (div_zero_fails m v w x "/" Iv Iw ltac:(left; reflexivity)) as F. rewrite (send1_int _ _ _ _ _ Iv) in F. exact F.
    + apply exactly_int with x y (x / y); auto. intros m v w Vv Vw Iv Iw X.
      destruct (floor_div m v w x y Vv Vw Iv Iw Y) as (q & r & Q & _ & E & B).
      { intros (-> & -> & ->). destruct (X eq_refl) as [<- <-]. apply S. split; reflexivity. }
      rewrite (send1_int _ _ _ _ _ Iv) in Q. replace (x / y) with q; [exact Q|].
      apply (Z.div_unique x y q r); lia.
  - destruct (same_cases _ _ Hb) as [(? & -> & _)|[(? & -> & _)|[_ ->]]]; try discriminate Eb.
    clear S. revert Eb D Ia. nonint.
Qed.
Lemma percent_agree : ~ smallest_by_minus_one a b ->
  same_outcome (prim_modulo Translated a b) (prim_modulo Hosted a' b').
Proof.
  intros S. apply (mixed _ dbl_modulo a a' b b' Ha Hb Na); [ |reflexivity|reflexivity|reflexivity|nonint| ].
  - intros x y Ia Ib _ _. destruct (Z.eq_dec y 0) as [->|Y].
    + apply failing with x 0; auto. intros m v w Iv Iw.
      pose proof (div_zero_fails m v w x "%" Iv Iw ltac:(right; left; reflexivity)) as F. rewrite (send1_int _ _ _ _ _ Iv) in F. exact F.
    + apply exactly_int with x y (x mod y); auto. intros m v w Vv Vw Iv Iw X.
      destruct (floor_div m v w x y Vv Vw Iv Iw Y) as (q & r & _ & Q & E & B).
      { intros (-> & -> & ->). destruct (X eq_refl) as [<- <-]. apply S. split; reflexivity. }
      rewrite (send1_int _ _ _ _ _ Iv) in Q. replace (x mod y) with r; [exact Q|].
      apply (Z.mod_unique x y q r); lia.
  - intros f. unfold dbl_modulo. rewrite <- (float_same _ _ Hb). dbl_outcome; reflexivity.
Qed.
Lemma rem_zero m v w x : int_val v = Some x -> int_val w = Some 0 -> ~ (big v /\ big w) -> fails (prim_remainder m v w).
Proof.
  intros Iv Iw N u. destruct v; try discriminate Iv; destruct w; try discriminate Iw; injection Iw as ->; cbn; try discriminate.
  - unfold llop_int_mod. destruct m; cbn; discriminate.
  - exfalso. apply N. split; eexists; reflexivity.
Qed.
Lemma rem_agree : ~ smallest_by_minus_one a b -> (big a -> ~ big b /\ ~ double b) ->
  same_outcome (prim_remainder Translated a b) (prim_remainder Hosted a' b').
Proof.
  intros S D. apply (mixed _ dbl_remainder a a' b b' Ha Hb Na); [ |reflexivity|reflexivity| |nonint| ].
  - intros x y Ia Ib Ia' Ib'. destruct (Z.eq_dec y 0) as [->|Y].
    + right. split; eapply rem_zero; eauto.
      * intros [X1 X2]. destruct (D X1). auto.
      * intros [[z X1] X2]. subst a'. destruct Va'.
    + apply exactly_int with x y (Z.rem x y); auto. intros m v w Vv Vw Iv Iw X.
      pose proof (rem_ok m v w x y Vv Vw Iv Iw Y) as Q. rewrite (send1_int _ _ _ _ _ Iv) in Q. apply Q.
      * intros (-> & -> & ->). destruct (X eq_refl) as [<- <-]. apply S. split; reflexivity.
      * intros [[z ->] [z' ->]]. destruct m; [|destruct Vv]. destruct (X eq_refl) as [<- <-]. destruct D as [D _]; [exists z; reflexivity|]. apply D. exists z'. reflexivity.
  - intros m z f E1 E2. exfalso. destruct D as [_ D]; [exists z; exact E2|]. apply D. exists f. exact E1.
  - intros f. unfold dbl_remainder. rewrite <- (float_same _ _ Hb). dbl_outcome; reflexivity.
Qed.
Lemma fdiv_same f b0 b0' : same_value b0 b0' -> ~ zero_number b0 ->
  same_outcome (dbl_double_div Translated f b0) (dbl_double_div Hosted f b0').
Proof.
  intros H Z. unfold dbl_double_div. rewrite <- (float_same _ _ H).
  destruct (get_float Translated b0) as [g|] eqn:G; [|eapply both_fail; reflexivity]. cbn [bind].
  assert (Nz : forall s, g <> S754_zero s).
  { intros s ->. destruct b0; try discriminate G; cbn [get_float] in G.
    - cbn in G. injection G as G. apply (nonzero_tofloat z s); auto.
    - unfold big_tofloat in G. destruct (float_of_Z z) eqn:E; try discriminate G; injection G as ->. apply (nonzero_tofloat z s); auto.
    - injection G as ->. apply Z. exact I. }
  assert (E : py_fdiv Translated f g = py_fdiv Hosted f g) by (destruct g; try reflexivity; exfalso; eapply Nz; reflexivity).
  rewrite E. dbl_outcome; reflexivity.
Qed.
Lemma fraction_agree : ~ zero_number b -> (integer a -> integer b -> ~ big a /\ ~ big b) ->
  same_outcome (prim_double_div Translated a b) (prim_double_div Hosted a' b').
Proof.
  intros Z C. apply (mixed _ dbl_double_div a a' b b' Ha Hb Na); [ |reflexivity|reflexivity|reflexivity|nonint| ].
  - intros x y Ia Ib _ _. destruct C as [B1 B2]; [unfold integer; congruence..|].
    destruct (same_cases _ _ Ha) as [(x' & -> & -> & R)|[(x' & -> & ->)|[N _]]]; [|exfalso; apply B1; eexists; reflexivity|congruence].
    destruct (same_cases _ _ Hb) as [(y' & -> & -> & Q)|[(y' & -> & ->)|[N _]]]; [|exfalso; apply B2; eexists; reflexivity|congruence].
    pose proof (fdiv_same (float_of_Z x') _ _ Hb Z) as F. revert F. unfold dbl_double_div. cbn [get_float prim_double_div int_double_div embedded_integer bind int_tofloat].
    rewrite (word_tofloat x' R), (word_tofloat y' Q). cbn [bind]. auto.
  - intros f. apply fdiv_same; auto.
Qed.
(** shifts *)
Lemma shift_agree : integer a -> (integer b -> ~ big a /\ ~ big b) -> (forall n, a = VInt 0 -> b = VInt n -> 0 <= n) ->
  same_outcome (p_left_shift Translated a b) (p_left_shift Hosted a' b').
Proof.
  intros Ia C P. destruct (same_cases _ _ Hb) as [(y & -> & -> & Q)|[(y & -> & ->)|[N ->]]].
  - destruct C as [B1 B2]; [discriminate|].
    destruct (same_cases _ _ Ha) as [(x & -> & -> & R)|[(x & -> & ->)|[N _]]]; [|exfalso; apply B1; eexists; reflexivity|contradiction].
    destruct (Z.lt_ge_cases y 0) as [L|L].
    + assert (X : x <> 0) by (intros ->; specialize (P y eq_refl eq_refl); lia).
      right. split; [exact (shl_negative Translated x y L X)|exact (shl_negative Hosted x y L X)].
    + apply both_int with (x * 2 ^ y); [apply (shl_ok Translated x y)|apply (shl_ok Hosted x y)]; auto; try discriminate; try exact I. intros; lia.
  - exfalso. destruct C as [_ B]; [discriminate|]. apply B. eexists; reflexivity.
  - destruct b; try discriminate N; eapply both_fail; reflexivity.
Qed.
Lemma xor_agree : integer a -> (integer b -> ~ big a /\ ~ big b) ->
  same_outcome (p_bit_xor a b) (p_bit_xor a' b').
Proof.
  intros Ia C. destruct (same_cases _ _ Hb) as [(y & -> & -> & Q)|[(y & -> & ->)|[N ->]]].
  - destruct C as [B1 B2]; [discriminate|].
    destruct (same_cases _ _ Ha) as [(x & -> & -> & R)|[(x & -> & ->)|[N _]]]; [|exfalso; apply B1; eexists; reflexivity|contradiction].
    cbn [p_bit_xor embedded_integer bind]. apply both_ok, same_int. apply lxor_word; auto.
  - exfalso. destruct C as [_ B]; [discriminate|]. apply B. eexists; reflexivity.
  - destruct b; try discriminate N; eapply both_fail; reflexivity.
Qed.
Lemma ushr_agree : integer a -> (integer b -> ~ big a /\ ~ big b) ->
  (forall x n, a = VInt x -> b = VInt n -> n <= 0 \/ (0 <= x /\ n < 64)) ->
  same_outcome (p_unsigned_right_shift Translated a b) (p_unsigned_right_shift Hosted a' b').
Proof.
  intros Ia C P. destruct (same_cases _ _ Hb) as [(y & -> & -> & Q)|[(y & -> & ->)|[N ->]]].
  - destruct C as [B1 B2]; [discriminate|].
    destruct (same_cases _ _ Ha) as [(x & -> & -> & R)|[(x & -> & ->)|[N _]]]; [|exfalso; apply B1; eexists; reflexivity|contradiction].
    specialize (P x y eq_refl eq_refl). cbn [p_unsigned_right_shift embedded_integer bind]. unfold unsigned_right_shift.
    destruct (Z.leb_spec 0 y) as [L|L]; cbn [andb].
    + destruct (Z.ltb_spec y 64); [|exfalso; lia]. destruct (Z.ltb_spec y 0); [lia|]. cbn [bind].
      destruct (Z.eq_dec y 0) as [->|Y].
      * rewrite !Z.shiftr_0_r. replace (wrap_word (x mod 2 ^ 64)) with x; [apply both_ok, same_int; auto|].
        unfold wrap_word. rewrite Z.add_mod_idemp_l by lia. rewrite Z.mod_small by lia. lia.
      * destruct P as [P|[P _]]; [lia|]. rewrite (Z.mod_small x) by lia.
        assert (K : 0 <= Z.shiftr x y <= x).
        { rewrite Z.shiftr_div_pow2 by lia. assert (PP := pow_pos y L). split; [apply Z.div_pos; lia|]. apply Z.div_le_upper_bound; nia. }
        rewrite wrap_word_id by lia. apply both_ok, same_int. lia.
    + destruct (Z.ltb_spec y 0); [|lia]. eapply both_fail; reflexivity.
  - exfalso. destruct C as [_ B]; [discriminate|]. apply B. eexists; reflexivity.
  - destruct b; try discriminate N; eapply both_fail; reflexivity.
Qed.
End Arith.

(** * Messages *)
Lemma string_eqb_true a b : String.eqb a b = true -> a = b.
Proof. apply String.eqb_eq. Qed.
Lemma send1_agree sel a a' b b' : same_value a a' -> same_value b b' -> agree1 sel a b ->
  same_outcome (send1 Translated a sel b) (send1 Hosted a' sel b').
Proof.
  intros Ha Hb (C1 & C2 & C3 & C4 & C5 & C6 & C7 & C8 & C9).
  assert (K : integer a -> is_number a ->
    same_outcome (match integer_binary Translated sel with Some f => f a b | None => Err NotInstalled end)
                 (match integer_binary Hosted sel with Some f => f a' b' | None => Err NotInstalled end)).
  { intros Ia Na. unfold integer_binary.
    repeat match goal with |- context [(sel =? ?s)%string] => destruct (String.eqb_spec sel s) as [->|?] end.
    - apply add_agree; auto.
    - apply subtract_agree; auto.
    - apply multiply_agree; auto.
    - destruct (C6 eq_refl). apply fraction_agree; auto.
    - apply slash_agree; auto. apply C2. cbn; auto.
    - apply percent_agree; auto. apply C2. cbn; auto.
    - apply rem_agree; auto. apply C2. cbn; auto.
    - apply and_agree; auto.
    - apply identical_agree; auto.
    - apply equals_agree; auto. intros f _ E. apply C1; cbn; auto.
    - apply lt_agree; auto.
    - apply le_agree; auto.
    - apply gt_agree; auto.
    - apply ge_agree; auto.
    - apply equals_agree; auto. intros f _ E. apply C1; cbn; auto.
    - apply equals_agree; auto. intros f _ E. apply C1; cbn; auto.
    - apply shift_agree; auto. intros Ib. apply C7; cbn; auto.
    - apply xor_agree; auto. intros Ib. apply C7; cbn; auto.
    - apply ushr_agree; auto. intros Ib. apply C7; cbn; auto.
    - apply max_agree; auto.
    - apply min_agree; auto.
    - eapply both_fail; reflexivity. }
  assert (D : is_number a ->
    same_outcome (match double_binary Translated sel with Some f => f a b | None => Err NotInstalled end)
                 (match double_binary Hosted sel with Some f => f a' b' | None => Err NotInstalled end)).
  { intros Na. unfold double_binary.
    repeat match goal with |- context [(sel =? ?s)%string] => destruct (String.eqb_spec sel s) as [->|?] end.
    - apply add_agree; auto.
    - apply subtract_agree; auto.
    - apply multiply_agree; auto.
    - destruct (C6 eq_refl). apply fraction_agree; auto.
    - apply percent_agree; auto. apply C2. cbn; auto.
    - apply equals_agree; auto. intros f I0 E. apply C1; cbn; auto.
    - apply lt_agree; auto.
    - apply le_agree; auto.
    - apply gt_agree; auto.
    - apply ge_agree; auto.
    - apply equals_agree; auto. intros f I0 E. apply C1; cbn; auto.
    - apply equals_agree; auto. intros f I0 E. apply C1; cbn; auto.
    - apply max_agree; auto.
    - apply min_agree; auto.
    - eapply both_fail; reflexivity. }
  unfold send1. destruct (same_cases _ _ Ha) as [(x & -> & -> & R)|[(x & -> & ->)|[N ->]]].
  - apply K; [discriminate|exact I].
  - apply K; [discriminate|exact I].
  - destruct a; try discriminate N; try (eapply both_fail; reflexivity). apply D. exact I.
Qed.

Lemma word_cut u z : - 2 ^ 63 * unit_scale <= u < 2 ^ 63 * unit_scale -> cut_off u z -> - 2 ^ 63 <= z < 2 ^ 63.
Proof. intros L [C1 C2]. pose proof scale_pos as S. destruct (Z.le_ge_cases 0 u) as [H|H]; [specialize (C1 H)|specialize (C2 H)]; nia. Qed.
Lemma word_near u z : Z.abs u < (2 ^ 63 - 1) * unit_scale -> nearest_away u z -> - 2 ^ 63 <= z < 2 ^ 63.
Proof. intros L [C1 C2]. pose proof scale_pos as S. nia. Qed.
Lemma no_units f : units f = None -> trunc_Z f = None /\ trunc_Z (round_double f) = None.
Proof. destruct f as [?|[]| |? ? ?]; try discriminate; intros _; split; reflexivity. Qed.
Lemma undefined_int m f : trunc_Z f = None -> exists e, py_int_of_float m f = Err e.
Proof. unfold py_int_of_float. intros ->. destruct m; [eexists; reflexivity|]. destruct f; eexists; reflexivity. Qed.

(** The root of a machine word, as a double, is far inside the word range. *)
Lemma root_word z : 2 ^ 52 <= z < 2 ^ 63 -> exists u, binary64 (fsqrt (float_of_Z z)) /\
  units (fsqrt (float_of_Z z)) = Some u /\ 0 <= u <= 2 ^ 40 * unit_scale.
Proof.
  intros H. assert (Hz : 2 ^ 52 <= z < 2 ^ 900) by (split; [lia|apply Z.lt_trans with (2 ^ 63); [lia|reflexivity]]).
  destruct (float_near _ Hz) as (m & e & E & Hm & He & NE). clear Hz. rewrite E.
  assert (Pe := pow_pos e ltac:(lia)).
  assert (He2 : e <= 12).
  { destruct (Z.le_gt_cases e 12) as [|X]; auto. exfalso.
    assert (2 ^ 13 <= 2 ^ e) by (apply Z.pow_le_mono_r; lia).
    assert (2 ^ e * (2 * Zpos m - 1) <= 2 * z) by nia. nia. }
  unfold fsqrt, SFsqrt, SFsqrt_core_binary. cbn [Zdigits2]. rewrite digits_53 by auto.
  set (h := Z.div2 e).
  assert (Hh : e = 2 * h \/ e = 2 * h + 1).
  { pose proof (Z.div2_odd e) as X. fold h in X. destruct (Z.odd e); cbn [Z.b2z] in X; lia. }
  assert (E1 : Z.div2 (53 + e + 1) = h + 27).
  { rewrite Z.div2_div. destruct Hh as [Hh|Hh]; rewrite Hh.
    - replace (53 + 2 * h + 1) with ((h + 27) * 2) by ring. apply Z.div_mul. lia.
    - replace (53 + (2 * h + 1) + 1) with (1 + (h + 27) * 2) by ring. rewrite Z.div_add by lia. reflexivity. }
  rewrite E1. change (fexp fprec femax (h + 27)) with (expo (h + 27)). rewrite expo_eq.
  assert (E2 : Z.min (Z.max (h + 27 - 53) (-1074)) h = h - 26) by lia. rewrite E2.
  set (k := 26 - h). assert (Ek : h - 26 = - k) by (unfold k; lia). rewrite Ek.
  assert (Hk : 20 <= k <= 26) by (unfold k; lia).
  set (sh := e - 2 * - k). assert (Hs : 52 <= sh <= 53) by (unfold sh, k; lia).
  assert (Em' : match sh with Z0 => Zpos m | Zpos _ => Z.shiftl (Zpos m) sh | Zneg _ => 0 end = Zpos m * 2 ^ sh).
  { destruct sh as [|p|p] eqn:X; try lia. rewrite Z.shiftl_mul_pow2 by lia. reflexivity. }
  rewrite Em'. set (M := Zpos m * 2 ^ sh) in *.
  assert (S53 : 2 ^ 52 <= 2 ^ sh <= 2 ^ 53) by (split; apply Z.pow_le_mono_r; lia).
  assert (HM : 2 ^ 52 * 2 ^ 52 <= M < 2 ^ 53 * 2 ^ 53) by (unfold M; nia).
  clearbody M.
  pose proof (Z.sqrtrem_spec M ltac:(lia)) as SQ. destruct (Z.sqrtrem M) as [q r]. destruct SQ as [SQ1 SQ2].
  assert (Hq : 2 ^ 52 <= q). { assert (2 ^ 52 < q + 1); [|lia]. apply sq_lt; lia. }
  assert (HqU : q < 2 ^ 53) by (apply sq_lt; lia).
  set (l := if Zeq_bool r 0 then loc_Exact else loc_Inexact (if r <=? q then Lt else Gt)).
  assert (EN : q <= round_nearest_even q l <= q + 1).
  { unfold l. destruct (Zeq_bool r 0); [|destruct (r <=? q)]; cbn [round_nearest_even]; lia. }
  destruct q as [|qp|qp]; try lia.
  destruct (round_53 qp (- k) l _ ltac:(lia) ltac:(lia) eq_refl ltac:(lia)) as [B U].
  eexists. split; [exact B|]. split; [exact U|].
  assert (P1 := pow_pos (- k + 1074) ltac:(lia)).
  assert (P2 : 2 ^ (- k + 1074) <= 2 ^ 1054) by (apply Z.pow_le_mono_r; lia).
  split; [nia|]. apply Z.le_trans with (2 ^ 53 * 2 ^ 1054); [apply Z.mul_le_mono_nonneg; lia|].
  unfold unit_scale. rewrite <- !pow_split by lia. apply Z.pow_le_mono_r; lia.
Qed.
(** The two doubles that [send_round] leaves out. *)
Lemma half_below f u : binary64 f -> units f = Some u -> Z.abs u = (2 ^ 53 - 1) * 2 ^ 1020 ->
  exists s, f = S754_finite s (2 ^ 53 - 1)%positive (-54).
Proof.
  intros B U A. destruct f as [s|s| |s m e]; try discriminate U.
  - injection U as <-. exfalso. revert A. vm_compute. discriminate.
  - destruct B as (B1 & B2 & B3). cbn [units] in U. injection U as <-. exists s.
    assert (P := pow_pos (e + 1074) ltac:(lia)).
    assert (A' : Zpos m * 2 ^ (e + 1074) = (2 ^ 53 - 1) * 2 ^ 1020).
    { rewrite <- A. rewrite !Z.abs_mul, (Z.abs_eq (2 ^ (e + 1074))) by lia. destruct s; rewrite ?Z.abs_eq by lia; cbn [Z.abs]; lia. }
    clear A. destruct (Z.lt_trichotomy (e + 1074) 1020) as [L|[L|L]].
    + exfalso. assert (E : 2 ^ 1020 = 2 ^ (1019 - (e + 1074)) * 2 * 2 ^ (e + 1074)).
      { change 2 with (2 ^ 1) at 3. rewrite <- !pow_split by lia. f_equal. lia. }
      rewrite E in A'. assert (P2 := pow_pos (1019 - (e + 1074)) ltac:(lia)).
      set (y := 2 ^ (1019 - (e + 1074))) in *. set (w := 2 ^ (e + 1074)) in *.
      assert (Zpos m = (2 ^ 53 - 1) * (y * 2)) by (apply (Z.mul_reg_r _ _ w); lia). nia.
    + assert (e = -54) as -> by lia. change (-54 + 1074) with 1020 in *. clear L.
      assert (Zpos m = 2 ^ 53 - 1) by (apply (Z.mul_reg_r _ _ (2 ^ 1020)); lia).
      assert (m = (2 ^ 53 - 1)%positive) as -> by lia. reflexivity.
    + exfalso. assert (E : 2 ^ (e + 1074) = 2 ^ (e + 1074 - 1021) * 2 * 2 ^ 1020).
      { change 2 with (2 ^ 1) at 3. rewrite <- !pow_split by lia. f_equal. lia. }
      rewrite E in A'. assert (P2 := pow_pos 1020 ltac:(lia)).
      set (y := 2 ^ (e + 1074 - 1021)) in *. set (w := 2 ^ 1020) in *.
      assert (Zpos m * (y * 2) = 2 ^ 53 - 1) by (apply (Z.mul_reg_r _ _ w); lia).
      assert (X : (Zpos m * y) * 2 = 2 ^ 53 - 1) by lia. lia.
Qed.
Lemma send0_agree sel a a' : same_value a a' -> agree0 sel a ->
  same_outcome (send0 Translated a sel) (send0 Hosted a' sel).
Proof.
  intros Ha (C1 & C2 & C3 & C4). destruct (valid_same _ _ Ha) as [Va Va'].
  assert (K : integer a ->
    same_outcome (match integer_unary Translated sel with Some f => f a | None => Err NotInstalled end)
                 (match integer_unary Hosted sel with Some f => f a' | None => Err NotInstalled end)).
  { intros Ia. unfold integer_unary.
    destruct (same_cases _ _ Ha) as [(x & -> & -> & R)|[(x & -> & ->)|[N _]]]; [| |contradiction].
    - repeat match goal with |- context [(sel =? ?s)%string] => destruct (String.eqb_spec sel s) as [->|?] end.
      + cbn [prim_as_double int_tofloat]. rewrite (word_tofloat x R). apply both_ok, same_other. reflexivity.
      + cbn [prim_as_32_bit_signed]. unfold int_as_32_bit_signed.
        destruct (signed32_spec Translated x) as (B1 & B2). destruct (signed32_spec Hosted x) as (B3 & B4).
        replace (as_32_bit_signed_value Hosted x) with (as_32_bit_signed_value Translated x); [apply both_ok, same_int; lia|].
        assert (M : (as_32_bit_signed_value Translated x - as_32_bit_signed_value Hosted x) mod 2 ^ 32 = 0) by (rewrite Zminus_mod, B2, B4, Z.sub_diag; reflexivity).
        apply Z.mod_divide in M; [|lia]. destruct M as [k M]. nia.
      + cbn [p_as_32_bit_unsigned embedded_integer bind].
        replace (as_32_bit_unsigned_value Hosted x) with (as_32_bit_unsigned_value Translated x) by (cbn [as_32_bit_unsigned_value]; rewrite land_ones32; reflexivity).
        apply both_ok, same_int. cbn [as_32_bit_unsigned_value]. pose proof (Z.mod_pos_bound x (2 ^ 32) ltac:(lia)). lia.
      + cbn [p_sqrt]. destruct (Z.ltb_spec x 0) as [X|X]; [eapply both_fail; reflexivity|].
        cbn [int_tofloat]. rewrite (word_tofloat x R). cbn [bind].
        assert (T : exists t, - 2 ^ 62 <= t <= 2 ^ 62 /\ trunc_Z (fsqrt (float_of_Z x)) = Some t).
        { destruct (Z.lt_ge_cases x (2 ^ 52)) as [L|L].
          - destruct (Z.eq_dec x 0) as [->|Nz]; [exists 0; split; [lia|reflexivity]|].
            destruct (root_next x ltac:(lia)) as (B & u & U & RN).
            destruct (trunc_ok _ u B U) as (t & E & CO). exists t. split; [|exact E].
            pose proof scale_pos as SP. destruct (int_exact (2 ^ 26) ltac:(lia)) as [B2 U2].
            pose proof (proj2 (RN _ _ B2 U2 ltac:(nia)) ltac:(nia)) as Q.
            destruct (int_exact 0 ltac:(lia)) as [B0 U0].
            pose proof (proj1 (RN _ _ B0 U0 ltac:(nia)) ltac:(nia)) as Q0. destruct CO as [CO _]. specialize (CO ltac:(lia)). nia.
          - destruct (root_word x ltac:(lia)) as (u & B & U & Q). destruct (trunc_ok _ u B U) as (t & E & CO). exists t. split; [|exact E].
            pose proof scale_pos as SP. destruct CO as [CO _]. specialize (CO ltac:(lia)). nia. }
        destruct T as (t & Ht & T). unfold py_int_of_float. rewrite T.
        assert (FW : fits_word t = true) by (apply fits_word_spec; lia). rewrite FW. cbn [bind].
        rewrite (word_tofloat t ltac:(lia)). cbn [bind].
        destruct (feq _ _); [apply both_ok, same_int; lia|apply both_ok, same_other; reflexivity].
      + assert (X : x <> - 2 ^ 63) by (intros ->; apply C1; reflexivity).
        apply both_int with (Z.abs x); [apply (abs_ok Translated (VInt x) x)|apply (abs_ok Hosted (VInt x) x)]; auto.
        * intros [_ E]. injection E as E. auto.
        * intros [E _]. discriminate E.
      + eapply both_fail; reflexivity.
    - repeat match goal with |- context [(sel =? ?s)%string] => destruct (String.eqb_spec sel s) as [->|?] end.
      + cbn [prim_as_double int_tofloat]. dbl_outcome; reflexivity.
      + exfalso. apply C2; [cbn; auto|eexists; reflexivity].
      + exfalso. apply C2; [cbn; auto|eexists; reflexivity].
      + exfalso. apply C2; [cbn; auto|eexists; reflexivity].
      + cbn [prim_abs big_abs int_abs unchecked]. unfold int_abs. apply both_ok, same_big.
      + eapply both_fail; reflexivity. }
  unfold send0. destruct (same_cases _ _ Ha) as [(x & -> & -> & R)|[(x & -> & ->)|[N ->]]].
  - apply K. discriminate.
  - apply K. discriminate.
  - destruct a as [| | | | |f| | |]; try discriminate N; try (eapply both_fail; reflexivity). unfold double_unary.
    destruct (units f) as [u|] eqn:U.
    + repeat match goal with |- context [(sel =? ?s)%string] => destruct (String.eqb_spec sel s) as [->|?] end.
      * destruct (C4 eq_refl f u eq_refl U) as (B & L).
        destruct (Z.eq_dec (Z.abs u) ((2 ^ 53 - 1) * 2 ^ 1020)) as [X|X].
        { destruct (half_below f u B U X) as [[] ->].
          - apply (both_ok (VInt (-1)) (VInt (-1))), same_int. lia.
          - apply (both_ok (VInt 1) (VInt 1)), same_int. lia. }
        destruct (send_round Translated f u B U X) as (z & Nz & S1 & _). destruct (send_round Hosted f u B U X) as (z' & Nz' & S2 & _).
        pose proof (word_near u z L Nz) as R. specialize (S1 R). specialize (S2 I).
        change (send0 Translated (VDbl f) "round"%string) with (d_round Translated (VDbl f)) in S1; change (send0 Hosted (VDbl f) "round"%string) with (d_round Hosted (VDbl f)) in S2. rewrite S1, S2.
        assert (z' = z) as ->; [|apply both_ok, same_int; auto].
        revert S1 S2. cbn [d_round]. unfold py_int_of_float. destruct (trunc_Z (round_double f)) as [w|]; [|destruct (round_double f); discriminate].
        destruct (fits_word w); [|discriminate]. cbn [bind]. congruence.
      * destruct (C3 eq_refl f u eq_refl U) as (B & L).
        destruct (as_integer_ok Translated f u B U) as (z & Nz & S1 & _). destruct (as_integer_ok Hosted f u B U) as (z' & Nz' & S2 & _).
        pose proof (word_cut u z L Nz) as R. specialize (S1 R). specialize (S2 I).
        change (send0 Translated (VDbl f) "asInteger"%string) with (d_as_integer Translated (VDbl f)) in S1; change (send0 Hosted (VDbl f) "asInteger"%string) with (d_as_integer Hosted (VDbl f)) in S2. rewrite S1, S2.
        rewrite (cut_unique u z' z Nz' Nz). apply both_ok, same_int. auto.
      * eapply both_fail; reflexivity.
    + destruct (no_units f U) as [T1 T2].
      repeat match goal with |- context [(sel =? ?s)%string] => destruct (String.eqb_spec sel s) as [->|?] end.
      * cbn [d_round]. destruct (undefined_int Translated _ T2) as [e1 ->]. destruct (undefined_int Hosted _ T2) as [e2 ->]. eapply both_fail; reflexivity.
      * cbn [d_as_integer]. destruct (undefined_int Translated _ T1) as [e1 ->]. destruct (undefined_int Hosted _ T1) as [e2 ->]. eapply both_fail; reflexivity.
      * eapply both_fail; reflexivity.
Qed.

(** * Programs *)
Lemma literal_agree neg t : (exists n, numeral t n) -> same_outcome (literal_integer Translated neg t) (literal_integer Hosted neg t).
Proof. intros [n N]. apply both_int with (if neg then - n else n); apply C57_literal; auto. Qed.
Lemma andthen_agree r r' k k' :
  (Forall agreeing (fst r) -> same_run r r') -> Forall agreeing (fst (andthen r k)) ->
  (forall e e' v v', same_env e e' -> same_value v v' -> Forall agreeing (fst (k e v)) -> same_run (k e v) (k' e' v')) ->
  same_run (andthen r k) (andthen r' k').
Proof.
  intros HR HF HK. destruct r as [tr o].
  assert (F : Forall agreeing tr).
  { destruct o as [[e [v|x]]|]; try exact HF. cbn [andthen] in HF. destruct (k e v). cbn [fst] in HF. apply Forall_app in HF. tauto. }
  specialize (HR F). destruct r' as [tr' o']. destruct HR as [HT HO]. cbn [fst snd] in HT, HO.
  destruct o as [[e [v|x]]|]; destruct o' as [[e' [v'|x']]|]; try contradiction.
  - destruct HO as [HE [(a & b & A & B & S)|[X _]]]; [|destruct (X v eq_refl)].
    injection A as <-. injection B as <-. cbn [andthen] in *.
    specialize (HK e e' v v' HE S). destruct (k e v) as [t1 o1]. cbn [fst] in HF, HK. apply Forall_app in HF.
    specialize (HK (proj2 HF)). destruct (k' e' v') as [t2 o2]. destruct HK as [K1 K2].
    split; [apply Forall2_app; auto|exact K2].
  - destruct HO as [_ [(a & b & _ & B & _)|[X _]]]; [discriminate B|destruct (X v eq_refl)].
  - destruct HO as [_ [(a & b & A & _)|[_ X]]]; [discriminate A|destruct (X v' eq_refl)].
  - destruct HO as [HE HO]. split; [exact HT|]. split; auto.
  - split; [exact HT|exact I].
Qed.
Lemma answer_agree e e' v v' : same_env e e' -> same_value v v' -> same_run ([], Some (e, Ok v)) ([], Some (e', Ok v')).
Proof. intros HE HV. split; [constructor|]. split; [exact HE|]. apply both_ok. exact HV. Qed.
Lemma choose_agree e e' v v' y y' n n' : same_env e e' -> same_value v v' ->
  (Forall agreeing (fst y) -> same_run y y') -> (Forall agreeing (fst n) -> same_run n n') ->
  Forall agreeing (fst (choose e v y n)) -> same_run (choose e v y n) (choose e' v' y' n').
Proof.
  intros HE HV HY HN HF.
  assert (W : same_run ([], Some (e, Err TypeError)) ([], Some (e', Err TypeError))).
  { split; [constructor|]. split; [exact HE|]. eapply both_fail; reflexivity. }
  destruct (same_cases _ _ HV) as [(x & -> & -> & R)|[(x & -> & ->)|[N ->]]]; try exact W.
  destruct v; cbn [choose] in *; auto.
Qed.
Lemma update_agree e e' n v v' : same_env e e' -> same_value v v' -> same_env (update e n v) (update e' n v').
Proof. intros HE HV k. unfold update. destruct (Nat.eqb k n); auto. Qed.
Lemma run_agree fuel : forall p e e', same_env e e' -> well_written p ->
  Forall agreeing (fst (run Translated fuel e p)) -> same_run (run Translated fuel e p) (run Hosted fuel e' p).
Proof.
  induction fuel as [|fuel IH]; intros p e e' HE HW HF; [split; [constructor|exact I]|].
  destruct p as [neg t|f|n|n p|p sel|p sel q|p q|c p q|c p]; cbn [run] in *; cbn [well_written] in HW.
  - split; [constructor|]. split; [exact HE|]. apply literal_agree. exact HW.
  - apply answer_agree; auto. apply same_other. reflexivity.
  - apply answer_agree; auto.
  - apply andthen_agree; auto. intros e1 e1' v v' HE1 HV _. split; [constructor|].
    split; [apply update_agree; auto|apply both_ok; auto].
  - apply andthen_agree; auto. intros e1 e1' v v' HE1 HV F1. split.
    + constructor; [|constructor]. split; [exact HV|]. split; [reflexivity|exact I].
    + split; [exact HE1|]. apply send0_agree; auto. inversion F1; auto.
  - destruct HW as [W1 W2]. apply andthen_agree; auto. intros e1 e1' v v' HE1 HV F1.
    apply andthen_agree; auto. intros e2 e2' w w' HE2 HV2 F2. split.
    + constructor; [|constructor]. split; [exact HV|]. split; [reflexivity|exact HV2].
    + split; [exact HE2|]. apply send1_agree; auto. inversion F2; auto.
  - destruct HW as [W1 W2]. apply andthen_agree; auto.
  - destruct HW as (W1 & W2 & W3). apply andthen_agree; auto. intros e1 e1' v v' HE1 HV F1. apply choose_agree; auto.
  - destruct HW as [W1 W2]. apply andthen_agree; auto. intros e1 e1' v v' HE1 HV F1. apply choose_agree; auto.
    + intros F2. apply andthen_agree; auto. intros e2 e2' w w' HE2 HV2 F3. apply IH; auto. split; auto.
    + intros _. apply answer_agree; auto. apply same_other. reflexivity.
Qed.

Lemma always_agree0 sel a : In sel always -> agree0 sel a.
Proof.
  intros H. repeat split; intros; exfalso; subst; cbn in *;
    repeat match goal with H : _ \/ _ |- _ => destruct H; subst end; try discriminate; try contradiction.
Qed.
Lemma always_agree1 sel a b : In sel always -> agree1 sel a b.
Proof.
  intros H. repeat split; intros; exfalso; subst; cbn in *;
    repeat match goal with H : _ \/ _ |- _ => destruct H; subst end; try discriminate; try contradiction.
Qed.
Lemma andthen_sent (P : sent -> Prop) r k : Forall P (fst r) -> (forall e v, Forall P (fst (k e v))) -> Forall P (fst (andthen r k)).
Proof.
  intros HR HK. destruct r as [tr [[e [v|x]]|]]; try exact HR. cbn [andthen]. specialize (HK e v). destruct (k e v). apply Forall_app. auto.
Qed.
Lemma choose_sent (P : sent -> Prop) e v y n : Forall P (fst y) -> Forall P (fst n) -> Forall P (fst (choose e v y n)).
Proof. intros. destruct v; cbn [choose fst]; auto. Qed.
Lemma only_sent m sels fuel : forall p e, sends_only sels p -> Forall (fun s => In (snd (fst s)) sels) (fst (run m fuel e p)).
Proof.
  induction fuel as [|fuel IH]; intros p e H; [constructor|].
  destruct p; cbn [run]; cbn [sends_only] in H; try constructor;
    repeat match goal with H : _ /\ _ |- _ => destruct H end;
    repeat first [ apply IH; solve [cbn; auto] | apply andthen_sent; [|intros] | apply choose_sent | solve [repeat constructor; auto] ].
Qed.
