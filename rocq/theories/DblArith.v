(** Rounding and square roots of doubles. *)
From Coq Require Import ZArith Bool String List Lia Floats.SpecFloat.
From Verif Require Import Base NumModel NumSpec DblSpec DblProofs DblRound.
Import ListNotations.
Open Scope Z_scope.

(** A power of two kept folded, so that arithmetic does not compute it. *)
Definition big (k : Z) : Z := 2 ^ k.
Lemma scale_pos : 0 < unit_scale.
Proof. apply Z.pow_pos_nonneg; lia. Qed.
Definition largest : Z := (2 ^ 53 - 1) * 2 ^ 2045.
Lemma largest_fits : fits largest.
Proof. exists (2 ^ 53 - 1), 971. split; [lia|]. split; [lia|]. reflexivity. Qed.
Lemma got x f : is_rounded x f ->
  (exists v, binary64 f /\ units f = Some v /\ (0 <= x -> 0 <= v) /\ (x <= 0 -> v <= 0) /\ next_to (Z.abs x) (Z.abs x) (Z.abs v)) \/
  (f = S754_infinity (x <? 0) /\ largest < Z.abs x).
Proof.
  assert (Q : forall s u, 0 < u -> rounded s u f ->
    (exists v, 0 < v /\ binary64 f /\ units f = Some (if s then - v else v) /\ next_to u u v) \/ (f = S754_infinity s /\ largest < u)).
  { intros s u Hu (m & e & C & E & N). destruct (Z.leb_spec e 971) as [L|L].
    - left. exists (m * 2 ^ (e + 1074)). destruct C as (C1 & C2 & C3).
      assert (P := pow_pos (e + 1074) ltac:(lia)).
      split; [nia|]. subst f. split; [|split; auto].
      + cbn [binary64]. rewrite Z2Pos.id by lia. lia.
      + cbn [units]. rewrite Z2Pos.id by lia. f_equal. destruct s; ring.
    - right. split; auto. destruct (Z.le_gt_cases u largest) as [G|G]; [|lia]. exfalso.
      pose proof (proj2 N largest largest_fits G) as X. destruct C as (C1 & C2 & C3).
      assert (2 ^ 2046 <= 2 ^ (e + 1074)) by (apply Z.pow_le_mono_r; lia).
      assert (Y : 2 ^ 52 * 2 ^ 2046 <= m * 2 ^ (e + 1074)).
      { apply Z.mul_le_mono_nonneg; try lia. }
      unfold largest in X. change (2 ^ 2046) with (2 * big 2045) in Y. change (2 ^ 2045) with (big 2045) in X.
      assert (0 < big 2045) by (apply pow_pos; lia). clear H G. nia. }
  intros [[-> [b ->]]|[[H R]|[H R]]].
  - left. exists 0. cbn [binary64 units]. repeat split; auto; lia.
  - destruct (Q _ _ H R) as [(v & V & B & U & N)|[E L]].
    + left. exists v. rewrite !Z.abs_eq by lia. split; auto. split; auto. split; [lia|]. split; [lia|auto].
    + right. destruct (Z.ltb_spec x 0); [lia|]. rewrite Z.abs_eq by lia. auto.
  - destruct (Q true (- x) ltac:(lia) R) as [(v & V & B & U & N)|[E L]].
    + left. exists (- v). rewrite (Z.abs_neq x), Z.abs_neq, Z.opp_involutive by lia. split; auto. split; auto. split; [lia|]. split; [lia|auto].
    + right. destruct (Z.ltb_spec x 0); [|lia]. rewrite Z.abs_neq by lia. auto.
Qed.
Lemma got_exact x f : is_rounded x f -> fits (Z.abs x) -> Z.abs x <= largest -> binary64 f /\ units f = Some x.
Proof.
  intros H F L. destruct (got _ _ H) as [(v & B & U & S1 & S2 & N1 & N2)|[_ G]]; [|lia].
  split; auto. rewrite U. f_equal. pose proof (N1 _ F (Z.le_refl _)). pose proof (N2 _ F (Z.le_refl _)). lia.
Qed.
Lemma small_fits q : 0 <= q <= 2 ^ 53 -> fits (q * unit_scale).
Proof. intros H. exists q, 0. split; [auto|]. split; [lia|reflexivity]. Qed.
Lemma scale_large : 2 ^ 60 * unit_scale <= largest.
Proof. unfold unit_scale, largest. vm_compute. discriminate. Qed.
Lemma int_exact z : - 2 ^ 53 <= z <= 2 ^ 53 -> binary64 (float_of_Z z) /\ units (float_of_Z z) = Some (z * unit_scale).
Proof.
  intros H. pose proof scale_pos as S. pose proof scale_large as G. apply got_exact; [apply int_rounded| |];
    rewrite Z.abs_mul, (Z.abs_eq unit_scale) by lia.
  - apply small_fits. lia.
  - eapply Z.le_trans; [|exact G]. apply Z.mul_le_mono_nonneg_r; lia.
Qed.
Lemma cut_unique u z z' : cut_off u z -> cut_off u z' -> z = z'.
Proof.
  unfold cut_off. pose proof scale_pos as S.
  intros [A B] [A' B']. destruct (Z.le_ge_cases 0 u) as [L|L].
  - specialize (A L). specialize (A' L). nia.
  - specialize (B L). specialize (B' L). nia.
Qed.
Lemma trunc_is f u z : binary64 f -> units f = Some u -> cut_off u z -> trunc_Z f = Some z.
Proof. intros B U C. destruct (trunc_ok f u B U) as (z' & T & C'). rewrite T. f_equal. eapply cut_unique; eauto. Qed.
Lemma cut_whole z : cut_off (z * unit_scale) z.
Proof. pose proof scale_pos. unfold cut_off. split; intros _; nia. Qed.
Lemma units_exactly f u : units f = Some u -> exactly f = Exactly u.
Proof. destruct f as [|[]| |]; try discriminate; cbn [units exactly]; intros H; congruence. Qed.
Lemma binary64_abs f : binary64 f -> binary64 (SFabs f).
Proof. destruct f; auto. Qed.
Lemma units_abs f u : units f = Some u -> binary64 f -> units (SFabs f) = Some (Z.abs u).
Proof.
  destruct f as [|[]| |s m e]; try discriminate; cbn [units SFabs]; intros H B; [injection H as <-; reflexivity|].
  assert (P := pow_pos (e + 1074) ltac:(cbn [binary64] in B; lia)). assert (G : 0 < Zpos m * 2 ^ (e + 1074)) by (apply Z.mul_pos_pos; lia). rewrite <- Z.mul_assoc in *. set (w := Zpos m * 2 ^ (e + 1074)) in *. clearbody w. assert (Eu : u = (if s then -1 else 1) * w) by congruence. apply f_equal. destruct s; lia.
Qed.
Lemma units_opp f u : units f = Some u -> units (SFopp f) = Some (- u).
Proof.
  destruct f as [|[]| |s m e]; try discriminate; cbn [units SFopp]; intros H; [injection H as <-; reflexivity|].
  rewrite <- Z.mul_assoc in *. set (w := Zpos m * 2 ^ (e + 1074)) in *. clearbody w.
  assert (Eu : u = (if s then -1 else 1) * w) by congruence. apply f_equal. destruct s; cbn [negb]; lia.
Qed.
Lemma binary64_opp f : binary64 f -> binary64 (SFopp f).
Proof. destruct f; auto. Qed.
Lemma copysign_ok g v f u : binary64 g -> units g = Some v -> 0 <= v -> binary64 f -> units f = Some u -> u <> 0 ->
  binary64 (py_copysign g f) /\ units (py_copysign g f) = Some (if u <? 0 then - v else v).
Proof.
  intros Bg Ug Hv Bf Uf Hu. unfold py_copysign.
  pose proof (units_abs _ _ Ug Bg) as A. rewrite Z.abs_eq in A by auto. pose proof (binary64_abs _ Bg) as BA.
  destruct f as [sf|sf| |sf m e]; try discriminate Uf.
  - cbn [units] in Uf. congruence.
  - assert (P := pow_pos (e + 1074) ltac:(cbn [binary64] in Bf; lia)). cbn [units] in Uf.
    assert (Eu : u = (if sf then -1 else 1) * Zpos m * 2 ^ (e + 1074)) by congruence. rewrite <- Z.mul_assoc in Eu. assert (G : 0 < Zpos m * 2 ^ (e + 1074)) by (apply Z.mul_pos_pos; lia).
    destruct sf.
    + destruct (Z.ltb_spec u 0); [|lia]. split; [apply binary64_opp; auto|]. apply units_opp; auto.
    + destruct (Z.ltb_spec u 0); [lia|]. auto.
Qed.

(** ** round *)
Definition half_scale : Z := 2 ^ 1073.
Lemma scale_half : unit_scale = 2 * half_scale.
Proof. reflexivity. Qed.
Lemma fits_frac r k : 0 <= k <= 1074 -> 0 <= r <= 2 ^ 53 -> fits (r * 2 ^ (1074 - k)).
Proof. intros. exists r, (- k). split; auto. split; [lia|]. do 2 f_equal. lia. Qed.
(** A fraction in [\[r, r+1)] after adding one half stays below [r + 1] when rounded. *)
Lemma bound_above m e r : canonical m e -> e <= -1 -> m * 2 ^ (e + 1074) <> (2 ^ 53 - 1) * 2 ^ 1020 ->
  r * unit_scale <= m * 2 ^ (e + 1074) + half_scale < (r + 1) * unit_scale ->
  exists P, fits P /\ m * 2 ^ (e + 1074) + half_scale <= P < (r + 1) * unit_scale.
Proof.
  change (2 ^ 1020) with (big 1020). intros (Hm & He & Hn) L Hne [Lo Hi]. set (a := m * 2 ^ (e + 1074)) in *.
  assert (Pe := pow_pos (e + 1074) ltac:(lia)). assert (Ph : 0 < half_scale) by (apply pow_pos; lia).
  pose proof scale_half as S.
  assert (a0 : 0 < a) by (unfold a; nia).
  assert (r0 : 0 <= r) by nia.
  destruct (Z.eq_dec r 0) as [->|Nr].
  - exists ((2 ^ 53 - 1) * big 1021). split; [exists (2 ^ 53 - 1), (-53); split; [lia|]; split; [lia|]; reflexivity|].
    assert (E1 : half_scale = 2 ^ 53 * big 1020) by reflexivity.
    assert (E2 : big 1021 = 2 * big 1020) by reflexivity. assert (P20 : 0 < big 1020) by (apply pow_pos; lia).
    rewrite E2. split; [|rewrite S, E1; nia].
    assert (La : a < 2 ^ 53 * big 1020) by lia.
    assert (a <= (2 ^ 53 - 2) * big 1020); [|nia].
    destruct (Z.le_gt_cases e (-55)) as [G|G].
    + assert (2 ^ (e + 1074) <= big 1019) by (apply Z.pow_le_mono_r; lia).
      assert (big 1020 = 2 * big 1019) by reflexivity. assert (0 < big 1019) by (apply pow_pos; lia).
      unfold a. assert (m * 2 ^ (e + 1074) <= 2 ^ 53 * big 1019) by (apply Z.mul_le_mono_nonneg; lia). nia.
    + assert (Xe : e = -54).
      { destruct (Z.eq_dec e (-54)) as [X|X]; auto. exfalso.
        assert (big 1021 <= 2 ^ (e + 1074)) by (apply Z.pow_le_mono_r; lia).
        assert (2 ^ 52 * big 1021 <= a) by (unfold a; apply Z.mul_le_mono_nonneg; lia). lia. }
      unfold a in *. subst e. change (2 ^ (-54 + 1074)) with (big 1020) in *.
      assert (m <> 2 ^ 53 - 1) by congruence. nia.
  - destruct (Z.le_gt_cases (r * unit_scale) a) as [G|G].
    + (* a in [r, r + 1/2) *)
      exists ((r + 1) * unit_scale - 2 ^ (e + 1074)).
      assert (Le : -53 < e).
      { destruct (Z.le_gt_cases e (-53)) as [X|X]; auto. exfalso.
        assert (2 ^ (e + 1074) <= big 1021) by (apply Z.pow_le_mono_r; lia).
        assert (a < 2 ^ 53 * big 1021) by (unfold a; assert (0 < big 1021) by (apply pow_pos; lia); nia).
        change (2 ^ 53 * big 1021) with unit_scale in *. nia. }
      assert (Es : unit_scale = 2 ^ (- e) * 2 ^ (e + 1074)).
      { unfold unit_scale. rewrite <- pow_split by lia. f_equal. lia. }
      assert (Eh : half_scale = 2 ^ (- e - 1) * 2 ^ (e + 1074)).
      { unfold half_scale. rewrite <- pow_split by lia. f_equal. lia. }
      assert (E53 : 2 ^ 53 = 2 ^ (53 + e) * 2 ^ (- e)).
      { rewrite <- pow_split by lia. f_equal. lia. }
      assert (Pk := pow_pos (- e) ltac:(lia)). assert (Pj := pow_pos (53 + e) ltac:(lia)).
      assert (Lm : r * 2 ^ (- e) <= m).
      { unfold a in G. rewrite Es in G. apply Z.mul_le_mono_pos_r with (2 ^ (e + 1074)); lia. }
      assert (Lr : r < 2 ^ (53 + e)).
      { apply Z.mul_lt_mono_pos_r with (2 ^ (- e)); lia. }
      split; [|split].
      * exists ((r + 1) * 2 ^ (- e) - 1), e. split; [|split; [lia|]].
        -- split; [nia|]. rewrite E53. assert ((r + 1) * 2 ^ (- e) <= 2 ^ (53 + e) * 2 ^ (- e)) by (apply Z.mul_le_mono_nonneg_r; lia). lia.
        -- rewrite Es. ring.
      * unfold a in *. rewrite Es, Eh in *.
        assert (m + 2 ^ (- e - 1) < (r + 1) * 2 ^ (- e)).
        { apply Z.mul_lt_mono_pos_r with (2 ^ (e + 1074)); lia. }
        replace ((r + 1) * (2 ^ (- e) * 2 ^ (e + 1074)) - 2 ^ (e + 1074)) with (((r + 1) * 2 ^ (- e) - 1) * 2 ^ (e + 1074)) by ring.
        rewrite <- Z.mul_add_distr_r. apply Z.mul_le_mono_nonneg_r; lia.
      * lia.
    + (* a below r: the sum is in [r, r + 1/2) *)
      assert (La : a < 2 ^ 52 * unit_scale).
      { unfold a. change (2 ^ 52 * unit_scale) with (2 ^ 53 * big 1073).
        assert (2 ^ (e + 1074) <= big 1073) by (apply Z.pow_le_mono_r; lia). assert (0 < big 1073) by (apply pow_pos; lia). nia. }
      assert (r <= 2 ^ 52) by nia.
      destruct (Z.eq_dec r (2 ^ 52)) as [Er|Er].
      * exists (r * unit_scale). split; [apply small_fits; lia|]. split; [|nia].
        assert (e = -1).
        { destruct (Z.le_gt_cases e (-2)) as [X|X]; [|lia]. exfalso.
          assert (2 ^ (e + 1074) <= big 1072) by (apply Z.pow_le_mono_r; lia). assert (0 < big 1072) by (apply pow_pos; lia).
          assert (half_scale = 2 * big 1072) by reflexivity. unfold a in Lo. nia. }
        unfold a in *. subst e. change (2 ^ (-1 + 1074)) with half_scale in *. nia.
      * exists ((2 * r + 1) * half_scale). split; [exists (2 * r + 1), (-1); split; [lia|]; split; [lia|]; reflexivity|]. split; nia.
Qed.
Lemma flt_units f g u v : binary64 f -> binary64 g -> units f = Some u -> units g = Some v -> flt f g = (u <? v).
Proof.
  intros Bf Bg Uf Ug. pose proof (lt_ok f g Bf Bg) as L. rewrite (units_exactly _ _ Uf), (units_exactly _ _ Ug) in L. cbn [below] in L.
  destruct (flt f g), (Z.ltb_spec u v); auto; exfalso; intuition lia.
Qed.
Lemma whole_above m e : canonical m e -> 2 ^ 52 * unit_scale <= m * 2 ^ (e + 1074) -> 0 <= e /\ m * 2 ^ (e + 1074) = (m * 2 ^ e) * unit_scale.
Proof.
  intros (Hm & He & _) H. assert (0 <= e).
  { destruct (Z.le_gt_cases 0 e) as [X|X]; auto. exfalso.
    assert (2 ^ (e + 1074) <= big 1073) by (apply Z.pow_le_mono_r; lia). assert (0 < big 1073) by (apply pow_pos; lia).
    change (2 ^ 52 * unit_scale) with (2 ^ 53 * big 1073) in H. nia. }
  split; auto. unfold unit_scale. rewrite pow_split by lia. ring.
Qed.
Lemma binary64_shape f u : binary64 f -> units f = Some u -> u <> 0 ->
  exists s m e, f = S754_finite s m e /\ canonical (Zpos m) e /\ e <= 971 /\ Z.abs u = Zpos m * 2 ^ (e + 1074) /\ s = (u <? 0).
Proof.
  destruct f as [|[]| |s m e]; try discriminate; intros B U N.
  - cbn [units] in U. congruence.
  - destruct (fits_self _ _ _ B) as [C L]. exists s, m, e. split; auto. split; auto. split; auto.
    assert (P := pow_pos (e + 1074) ltac:(destruct C; lia)). cbn [units] in U. rewrite <- Z.mul_assoc in U.
    assert (G : 0 < Zpos m * 2 ^ (e + 1074)) by (apply Z.mul_pos_pos; lia).
    set (w := Zpos m * 2 ^ (e + 1074)) in *. clearbody w. assert (Eu : u = (if s then -1 else 1) * w) by congruence.
    destruct s, (Z.ltb_spec u 0); split; auto; lia.
Qed.
Lemma one_ok : binary64 (float_of_Z 1) /\ units (float_of_Z 1) = Some unit_scale.
Proof. destruct (int_exact 1 ltac:(lia)) as [A B]. rewrite Z.mul_1_l in B. auto. Qed.

Lemma round_ok f u : binary64 f -> units f = Some u -> Z.abs u <> (2 ^ 53 - 1) * 2 ^ 1020 ->
  exists z, nearest_away u z /\ binary64 (round_double f) /\ units (round_double f) = Some (z * unit_scale).
Proof.
  change (2 ^ 1020) with (big 1020). intros B U Hne. pose proof scale_pos as S. pose proof scale_half as SH. destruct one_ok as [B1 U1].
  destruct (Z.eq_dec u 0) as [->|Nu].
  { destruct f as [s| | |s m e]; try discriminate.
    - exists 0. split; [unfold nearest_away; lia|]. destruct s; vm_compute; auto.
    - exfalso. assert (P := pow_pos (e + 1074) ltac:(cbn [binary64] in B; lia)). cbn [units] in U.
      assert ((if s then -1 else 1) * Zpos m * 2 ^ (e + 1074) = 0) by congruence. destruct s; nia. }
  destruct (binary64_shape f u B U Nu) as (s & m & e & -> & C & Le & Ea & Es).
  set (a := Z.abs u) in *. set (f := S754_finite s m e) in *.
  assert (Bh : binary64 one_half) by (unfold one_half; cbn [binary64]; lia).
  destruct (sum_ok false m e false (2 ^ 52) (-53)) as [R _]; [cbn [binary64]; destruct C; lia|exact Bh|].
  change (S754_finite false (2 ^ 52) (-53)) with one_half in R. cbn [cond_Zopp] in R. rewrite <- Ea in R.
  change (Z.pos (2 ^ 52) * 2 ^ (-53 + 1074)) with half_scale in R.
  unfold round_double. change (SFabs f) with (S754_finite false m e).
  set (g := fadd (S754_finite false m e) one_half) in *.
  assert (a0 : 0 < a) by (unfold a; lia). assert (h0 : 0 < half_scale) by lia.
  assert (Fa : fits a) by (rewrite Ea; apply canonical_fits; auto).
  assert (Ba : binary64 (S754_finite false m e)) by (cbn [binary64]; destruct C; lia).
  assert (Ua : units (S754_finite false m e) = Some a) by (cbn [units]; rewrite Z.mul_1_l; congruence).
  destruct (Z.lt_ge_cases a (2 ^ 52 * unit_scale)) as [Sm|Lg].
  - (* below 2^52 *)
    set (r := (a + half_scale) / unit_scale).
    assert (Hr : r * unit_scale <= a + half_scale < (r + 1) * unit_scale).
    { pose proof (Z.div_mod (a + half_scale) unit_scale ltac:(lia)). pose proof (Z.mod_pos_bound (a + half_scale) unit_scale S). fold r in H. nia. }
    assert (Hr0 : 0 <= r) by (apply Z.div_pos; lia).
    assert (Hr1 : r <= 2 ^ 52) by nia.
    destruct (got _ _ R) as [(v & Bg & Ug & V0 & _ & N1 & N2)|[_ G]].
    2:{ exfalso. pose proof scale_large. nia. }
    rewrite (Z.abs_eq (a + half_scale)) in * by lia. specialize (V0 ltac:(lia)). rewrite (Z.abs_eq v) in * by lia.
    assert (Lo : r * unit_scale <= v) by (apply N1; [apply small_fits; lia|lia]).
    assert (Hi : v < (r + 1) * unit_scale).
    { assert (e <= -1).
      { destruct (Z.le_gt_cases e (-1)) as [X|X]; auto. exfalso. destruct C as (C1 & C2 & C3).
        assert (unit_scale <= 2 ^ (e + 1074)) by (apply Z.pow_le_mono_r; lia). nia. }
      destruct (bound_above (Zpos m) e r C H) as (P & FP & P1 & P2); rewrite <- ?Ea; auto.
      rewrite <- Ea in P1. pose proof (N2 P FP P1). lia. }
    assert (T : trunc_Z g = Some r).
    { eapply trunc_is; eauto. split; intros; nia. }
    rewrite T. destruct (int_exact r ltac:(lia)) as [Br Ur].
    assert (D : flt (fsub (float_of_Z r) (S754_finite false m e)) (float_of_Z 1) = true).
    { destruct (Z.eq_dec r 0) as [->|Nr].
      - change (fsub (float_of_Z 0) (S754_finite false m e)) with (S754_finite true m e).
        assert (Ua' : units (S754_finite true m e) = Some (- a)) by (apply (units_opp (S754_finite false m e)); auto).
        assert (Ba2 : binary64 (S754_finite true m e)) by exact Ba. rewrite (flt_units _ _ _ _ Ba2 B1 Ua' U1). apply Z.ltb_lt. lia.
      - destruct (binary64_shape _ _ Br Ur ltac:(nia)) as (s' & m' & e' & Ef & C' & _ & Ev & Es').
        assert (s' = false) as -> by (rewrite Es'; apply Z.ltb_ge; nia).
        rewrite Ef in *. destruct (sum_ok false m' e' false m e Br Ba) as [_ Q]. cbn [cond_Zopp] in Q.
        rewrite <- Ea, <- Ev in Q. rewrite (Z.abs_eq (r * unit_scale)) in Q by nia.
        assert (Lh : r * unit_scale - a <= half_scale) by lia.
        assert (Gh : - half_scale < r * unit_scale - a) by nia.
        assert (Fh : fits half_scale) by (exists 1, (-1); split; [lia|]; split; [lia|]; reflexivity).
        destruct (got _ _ Q) as [(w & Bw & Uw & _ & _ & _ & W)|[_ G]].
        + rewrite (flt_units _ _ _ _ Bw B1 Uw U1). apply Z.ltb_lt. pose proof (W half_scale Fh ltac:(lia)). lia.
        + exfalso. pose proof scale_large. nia. }
    rewrite D. destruct (copysign_ok _ _ f u Br Ur ltac:(nia) B U Nu) as [Bc Uc].
    exists (if u <? 0 then - r else r). split; [|split; auto].
    + unfold nearest_away. unfold a in *. destruct (Z.ltb_spec u 0); split; nia.
    + rewrite Uc. f_equal. destruct (u <? 0); ring.
  - (* whole numbers *)
    rewrite Ea in Lg. destruct (whole_above _ _ C Lg) as [e0 W]. rewrite <- Ea in *. set (A := Zpos m * 2 ^ e) in *.
    assert (Nr : forall h, h = f -> exists z, nearest_away u z /\ binary64 h /\ units h = Some (z * unit_scale)).
    { intros h ->. exists (if u <? 0 then - A else A).
      assert (Eu : u = (if u <? 0 then - A else A) * unit_scale) by (unfold a in *; destruct (Z.ltb_spec u 0); lia).
      split; [|split; auto; congruence]. unfold nearest_away. rewrite <- Eu. lia. }
    destruct (got _ _ R) as [(v & Bg & Ug & V0 & _ & N1 & N2)|[Eg G]].
    2:{ rewrite Eg. apply Nr. destruct (a + half_scale <? 0); reflexivity. }
    rewrite (Z.abs_eq (a + half_scale)) in * by lia. specialize (V0 ltac:(lia)). rewrite (Z.abs_eq v) in * by lia.
    assert (Lo : a <= v) by (apply N1; auto; lia).
    destruct (binary64_shape _ _ Bg Ug ltac:(lia)) as (s' & m' & e' & Eg & C' & Le' & Ev & _). rewrite (Z.abs_eq v) in Ev by lia.
    destruct (whole_above _ _ C' ltac:(lia)) as [e0' W']. set (r := Zpos m' * 2 ^ e') in *.
    assert (Evr : v = r * unit_scale) by lia.
    assert (T : trunc_Z g = Some r) by (eapply trunc_is; eauto; rewrite Evr; apply cut_whole).
    rewrite T. assert (Fv : fits v) by (rewrite Ev; apply canonical_fits; auto).
    destruct (got_exact _ _ (int_rounded r)) as [Br Ur]; rewrite <- Evr in *.
    { rewrite Z.abs_eq by lia. auto. }
    { rewrite Z.abs_eq by lia. rewrite Ev. unfold largest. destruct C' as (C1 & C2 & C3).
      change (2 ^ 2045) with (big 2045). assert (2 ^ (e' + 1074) <= big 2045) by (apply Z.pow_le_mono_r; lia). assert (P := pow_pos (e' + 1074) ltac:(lia)).
      apply Z.mul_le_mono_nonneg; lia. }
    destruct (binary64_shape _ _ Br Ur ltac:(lia)) as (s2 & m2 & e2 & Ef & C2 & _ & Ev2 & Es2).
    assert (s2 = false) as -> by (rewrite Es2; apply Z.ltb_ge; lia). rewrite (Z.abs_eq v) in Ev2 by lia.
    rewrite Ef in *. destruct (sum_ok false m2 e2 false m e Br Ba) as [_ Q]. cbn [cond_Zopp] in Q. rewrite <- Ea, <- Ev2 in Q.
    destruct (Z.eq_dec v a) as [Eva|Nva].
    + rewrite Eva, Z.sub_diag in Q. destruct Q as [[_ [b Q]]|[[X _]|[X _]]]; try lia. rewrite Q.
      replace (flt (S754_zero b) (float_of_Z 1)) with true by (destruct b; reflexivity).
      destruct (copysign_ok _ _ f u Br Ur ltac:(lia) B U Nu) as [Bc Uc].
      exists (if u <? 0 then - A else A).
      assert (Eu : u = (if u <? 0 then - A else A) * unit_scale) by (unfold a in *; destruct (Z.ltb_spec u 0); lia).
      split; [unfold nearest_away; rewrite <- Eu; lia|]. split; auto. rewrite Uc. f_equal. rewrite <- Eu. unfold a in *. destruct (Z.ltb_spec u 0); lia.
    + assert (Ld : unit_scale <= v - a) by (assert (A < r) by (apply Z.mul_lt_mono_pos_r with unit_scale; lia); assert ((A + 1) * unit_scale <= r * unit_scale) by (apply Z.mul_le_mono_nonneg_r; lia); lia).
      replace (flt (fsub (S754_finite false m2 e2) (S754_finite false m e)) (float_of_Z 1)) with false; [apply Nr; reflexivity|].
      symmetry. destruct (got _ _ Q) as [(w & Bw & Uw & W0 & _ & W1 & _)|[Ew _]].
      * rewrite (flt_units _ _ _ _ Bw B1 Uw U1). apply Z.ltb_ge.
        assert (Fu : fits unit_scale) by (exists 1, 0; split; [lia|]; split; [lia|]; reflexivity).
        pose proof (W1 unit_scale Fu ltac:(lia)). lia.
      * rewrite Ew. destruct (Z.ltb_spec (v - a) 0); [lia|reflexivity].
Qed.
Lemma send_round m f u : binary64 f -> units f = Some u -> Z.abs u <> (2 ^ 53 - 1) * 2 ^ 1020 ->
  exists z, nearest_away u z /\
    (word_sized m z -> send0 m (VDbl f) "round" = Ok (VInt z)) /\
    (~ word_sized m z -> send0 m (VDbl f) "round" = Err UndefinedBehaviour).
Proof.
  intros B U N. destruct (round_ok f u B U N) as (z & Hz & Br & Ur). exists z. split; auto.
  change (send0 m (VDbl f) "round") with (z <- py_int_of_float m (round_double f) ;; Ok (VInt z)).
  unfold py_int_of_float. rewrite (trunc_is _ _ z Br Ur (cut_whole z)). unfold word_sized.
  destruct m; [|split; [reflexivity|tauto]].
  unfold fits_word, word_min, word_max. split; intros W.
  - replace ((- 2 ^ 63 <=? z) && (z <=? 2 ^ 63 - 1)) with true; [reflexivity|].
    symmetry. apply andb_true_iff. rewrite !Z.leb_le. lia.
  - destruct ((- 2 ^ 63 <=? z) && (z <=? 2 ^ 63 - 1)) eqn:E; [|reflexivity].
    apply andb_true_iff in E. rewrite !Z.leb_le in E. lia.
Qed.

(** ** sqrt *)
Lemma sq_le a b : 0 <= b -> a * a <= b * b -> a <= b.
Proof. intros. nia. Qed.
Lemma sq_lt a b : 0 <= b -> a * a < b * b -> a < b.
Proof. intros. nia. Qed.
Lemma float_shape z : 0 < z < 2 ^ 52 -> exists m e, float_of_Z z = S754_finite false m e /\ 2 ^ 52 <= Zpos m < 2 ^ 53 /\ -52 <= e <= -1 /\ Zpos m = z * 2 ^ (- e).
Proof.
  intros H. destruct (int_exact z ltac:(lia)) as [B U]. pose proof scale_pos as S.
  destruct (binary64_shape _ _ B U ltac:(nia)) as (s & m & e & E & (C1 & C2 & C3) & _ & Ev & Es).
  rewrite Z.abs_eq in Ev by nia.
  assert (s = false) as -> by (rewrite Es; apply Z.ltb_ge; nia).
  assert (P := pow_pos (e + 1074) ltac:(lia)).
  assert (L1 : -1074 < e).
  { destruct (Z.eq_dec e (-1074)) as [->|]; [|lia]. exfalso. change (2 ^ (-1074 + 1074)) with 1 in Ev.
    assert (2 ^ 53 < unit_scale) by reflexivity. nia. }
  destruct C3 as [C3|]; [|lia].
  assert (L2 : e <= -1).
  { destruct (Z.le_gt_cases e (-1)) as [X|X]; auto. exfalso.
    assert (unit_scale <= 2 ^ (e + 1074)) by (apply Z.pow_le_mono_r; lia). nia. }
  assert (L3 : -52 <= e).
  { destruct (Z.le_gt_cases (-52) e) as [X|X]; auto. exfalso.
    assert (2 ^ (e + 1074) <= big 1021) by (apply Z.pow_le_mono_r; lia).
    assert (unit_scale = 2 ^ 53 * big 1021) by reflexivity. assert (0 < big 1021) by (apply pow_pos; lia). nia. }
  exists m, e. split; auto. split; [lia|]. split; [lia|].
  assert (Es' : unit_scale = 2 ^ (- e) * 2 ^ (e + 1074)) by (unfold unit_scale; rewrite <- pow_split by lia; f_equal; lia).
  apply Z.mul_reg_r with (2 ^ (e + 1074)); [lia|]. rewrite <- Ev, Es'. ring.
Qed.
Lemma digits_53 m : 2 ^ 52 <= Zpos m < 2 ^ 53 -> Zpos (digits2_pos m) = 53.
Proof.
  intros H. destruct (digits_pos m) as [A B]. set (d := Zpos (digits2_pos m)) in *.
  assert (d - 1 < 53). { apply (Z.pow_lt_mono_r_iff 2); lia. }
  assert (52 < d). { apply (Z.pow_lt_mono_r_iff 2); lia. }
  lia.
Qed.
(** The root, with enough bits that it lies between two consecutive multiples of 2^-k. *)
Lemma root_ok z : 0 < z < 2 ^ 52 -> exists k q V, 27 <= k <= 52 /\ 2 ^ 52 <= q /\
  q * q <= z * 2 ^ k * 2 ^ k < (q + 1) * (q + 1) /\
  binary64 (fsqrt (float_of_Z z)) /\ units (fsqrt (float_of_Z z)) = Some V /\ 0 <= V /\
  next_to (q * 2 ^ (1074 - k)) ((q + (if q * q =? z * 2 ^ k * 2 ^ k then 0 else 1)) * 2 ^ (1074 - k)) V.
Proof.
  intros H. destruct (float_shape z H) as (m & e & E & Hm & He & Em). rewrite E.
  unfold fsqrt, SFsqrt, SFsqrt_core_binary. cbn [Zdigits2]. rewrite digits_53 by auto.
  set (h := Z.div2 e).
  assert (Hh : e = 2 * h \/ e = 2 * h + 1).
  { pose proof (Z.div2_odd e) as X. fold h in X. destruct (Z.odd e); cbn [Z.b2z] in X; lia. }
  assert (E1 : Z.div2 (53 + e + 1) = h + 27).
  { rewrite Z.div2_div. destruct Hh as [Hh|Hh]; rewrite Hh.
    - replace (53 + 2 * h + 1) with ((h + 27) * 2) by ring. apply Z.div_mul. lia.
    - replace (53 + (2 * h + 1) + 1) with (1 + (h + 27) * 2) by ring. rewrite Z.div_add by lia. reflexivity. }
  rewrite E1. change (fexp fprec femax (h + 27)) with (expo (h + 27)). rewrite expo_eq.
  assert (E2 : Z.min (Z.max (h + 27 - 53) (-1074)) h = h - 26) by lia. rewrite E2.
  set (k := 26 - h). assert (Ek : h - 26 = - k) by (unfold k; lia). rewrite Ek.
  assert (Hk : 27 <= k <= 52) by (unfold k; lia).
  set (sh := e - 2 * - k). assert (Hs : 52 <= sh <= 53) by (unfold sh, k; lia).
  assert (Em' : match sh with Z0 => Zpos m | Zpos _ => Z.shiftl (Zpos m) sh | Zneg _ => 0 end = z * 2 ^ k * 2 ^ k).
  { destruct sh as [|p|p] eqn:X; try lia. rewrite <- X in *. rewrite Z.shiftl_mul_pow2 by lia. rewrite Em.
    rewrite <- !Z.mul_assoc. f_equal. rewrite <- !pow_split by (unfold sh in *; lia). f_equal. unfold sh. lia. }
  rewrite Em'. set (M := z * 2 ^ k * 2 ^ k) in *.
  assert (HM : 2 ^ 52 * 2 ^ 52 <= M).
  { rewrite <- Em'. destruct sh as [|p|p] eqn:X; try lia. rewrite <- X in *. rewrite Z.shiftl_mul_pow2 by lia.
    assert (2 ^ 52 <= 2 ^ sh) by (apply Z.pow_le_mono_r; lia). apply Z.mul_le_mono_nonneg; lia. }
  pose proof (Z.sqrtrem_spec M ltac:(lia)) as SQ. destruct (Z.sqrtrem M) as [q r]. destruct SQ as [SQ1 SQ2].
  assert (Hq0 : 0 <= q) by lia.
  assert (Hq : 2 ^ 52 <= q). { assert (2 ^ 52 < q + 1); [|lia]. apply sq_lt; lia. }
  assert (HqU : q < 2 ^ 79).
  { apply sq_lt; [lia|]. assert (2 ^ k <= 2 ^ 52) by (apply Z.pow_le_mono_r; lia). assert (P := pow_pos k ltac:(lia)).
    assert (z * 2 ^ k <= 2 ^ 52 * 2 ^ 52) by (apply Z.mul_le_mono_nonneg; lia).
    assert (M <= 2 ^ 52 * 2 ^ 52 * 2 ^ 52) by (apply Z.mul_le_mono_nonneg; nia). lia. }
  set (l := if Zeq_bool r 0 then loc_Exact else loc_Inexact (if r <=? q then Lt else Gt)).
  assert (El : match l with loc_Exact => 0 | _ => 1 end = if q * q =? M then 0 else 1).
  { unfold l. pose proof (Zeq_bool_if r 0) as Z0. destruct (Zeq_bool r 0).
    - destruct (Z.eqb_spec (q * q) M); [reflexivity|lia].
    - destruct (Z.eqb_spec (q * q) M); [lia|reflexivity]. }
  destruct q as [|qp|qp]; try lia.
  assert (Dq : 53 <= Zpos (digits2_pos qp)).
  { destruct (digits_pos qp) as [_ X]. assert (52 < Zpos (digits2_pos qp)); [|lia]. apply (Z.pow_lt_mono_r_iff 2); lia. }
  destruct (round_aux_ok false (Zpos qp) (- k) l) as (m2 & e2 & C & ER & N); [lia|lia| |].
  { cbn [Zdigits2]. rewrite expo_eq. lia. }
  rewrite El in N. replace (- k + 1074) with (1074 - k) in N by lia.
  exists k, (Zpos qp), (m2 * 2 ^ (e2 + 1074)). split; [auto|]. split; [auto|]. split; [nia|].
  assert (P2 := pow_pos (e2 + 1074) ltac:(destruct C; lia)).
  assert (e2 <= 971).
  { destruct (Z.le_gt_cases e2 971) as [X|X]; auto. exfalso. destruct N as [_ N].
    assert (F : fits (2 ^ 79 * unit_scale)) by (exists 1, 79; split; [lia|]; split; [lia|]; reflexivity).
    assert (L : (Zpos qp + (if Zpos qp * Zpos qp =? M then 0 else 1)) * 2 ^ (1074 - k) <= 2 ^ 79 * unit_scale).
    { assert (2 ^ (1074 - k) <= unit_scale) by (apply Z.pow_le_mono_r; lia). assert (0 <= 2 ^ (1074 - k)) by (apply Z.pow_nonneg; lia).
      apply Z.mul_le_mono_nonneg; auto; destruct (Z.pos qp * Z.pos qp =? M); lia. }
    specialize (N _ F L). destruct C as (C1 & C2 & C3).
    assert (Y : big 2046 <= 2 ^ (e2 + 1074)) by (apply Z.pow_le_mono_r; lia).
    assert (2 ^ 79 * unit_scale < big 2046) by reflexivity. nia. }
  rewrite ER. destruct (Z.leb_spec e2 971) as [X|X]; [|lia]. clear X.
  split; [destruct C as (C1 & C2 & C3); cbn [binary64]; rewrite Z2Pos.id by lia; lia|].
  split; [cbn [units]; rewrite Z2Pos.id by (destruct C; lia); f_equal; ring|].
  split; [destruct C; nia|]. exact N.
Qed.
Lemma root_next z : 0 < z < 2 ^ 52 -> next_to_root (fsqrt (float_of_Z z)) z.
Proof.
  intros H. destruct (root_ok z H) as (k & q & V & Hk & Hq & [S1 S2] & B & U & V0 & N1 & N2).
  split; auto. exists V. split; auto. intros g p Bg Ug Hp.
  assert (Pk := pow_pos (1074 - k) ltac:(lia)).
  assert (Es : unit_scale = 2 ^ k * 2 ^ (1074 - k)) by (unfold unit_scale; rewrite <- pow_split by lia; f_equal; lia).
  destruct (Z.eq_dec p 0) as [->|Np].
  { split; [lia|]. intros X. pose proof scale_pos. nia. }
  destruct (binary64_shape _ _ Bg Ug Np) as (s & pm & pe & _ & C & _ & Ep & _). rewrite Z.abs_eq in Ep by auto.
  assert (Fp : fits p) by (rewrite Ep; apply canonical_fits; auto).
  set (T := 2 ^ (1074 - k)) in *.
  assert (Ez : z * unit_scale * unit_scale = (z * 2 ^ k * 2 ^ k) * (T * T)) by (rewrite Es; ring).
  rewrite Ez. set (M := z * 2 ^ k * 2 ^ k) in *.
  destruct (Z.le_gt_cases (- k) pe) as [L|L].
  - assert (Epq : p = Zpos pm * 2 ^ (pe + k) * T).
    { rewrite Ep, <- Z.mul_assoc. f_equal. unfold T. rewrite <- pow_split by lia. f_equal. lia. }
    set (n := Zpos pm * 2 ^ (pe + k)) in *. assert (n0 : 0 <= n) by (assert (Pn := pow_pos (pe + k) ltac:(lia)); unfold n; nia).
    assert (Epp : p * p = (n * n) * (T * T)) by (rewrite Epq; ring). rewrite Epp.
    assert (PT : 0 < T * T) by nia.
    split; intros X; apply Z.mul_le_mono_pos_r in X; auto.
    + apply N1; auto. rewrite Epq. apply Z.mul_le_mono_nonneg_r; [lia|]. assert (n < q + 1); [|lia]. apply sq_lt; lia.
    + apply N2; auto. rewrite Epq. apply Z.mul_le_mono_nonneg_r; [lia|].
      assert (q <= n) by (apply sq_le; lia). destruct (Z.eqb_spec (q * q) M); [lia|].
      destruct (Z.eq_dec q n) as [->|]; [exfalso; lia|lia].
  - (* small numbers *)
    assert (Lp : p < q * T).
    { rewrite Ep. destruct C as (C1 & _ & _).
      assert (2 ^ (pe + 1074) <= 2 ^ (1074 - k - 1)) by (apply Z.pow_le_mono_r; lia).
      assert (ET : T = 2 * 2 ^ (1074 - k - 1)). { unfold T. replace (1074 - k) with (1 + (1074 - k - 1)) at 1 by lia. rewrite pow_split by lia. reflexivity. }
      assert (PP := pow_pos (1074 - k - 1) ltac:(lia)). nia. }
    split; intros X.
    + apply N1; auto. lia.
    + exfalso. assert (p * p < (q * T) * (q * T)) by nia. nia.
Qed.
Lemma sqrt_fits_word t : 0 <= t <= 2 ^ 26 -> fits_word t = true.
Proof. intros. unfold fits_word, word_min, word_max. apply andb_true_iff. rewrite !Z.leb_le. lia. Qed.
Lemma tofloat_ok m z : - 2 ^ 53 <= z <= 2 ^ 53 -> int_tofloat m z = Ok (float_of_Z z).
Proof.
  intros H. destruct m; [reflexivity|]. unfold int_tofloat, big_tofloat. destruct (int_exact z H) as [_ U].
  destruct (float_of_Z z); try discriminate U; reflexivity.
Qed.
Lemma feq_units f g u v : binary64 f -> binary64 g -> units f = Some u -> units g = Some v -> feq f g = (u =? v).
Proof.
  intros Bf Bg Uf Ug. pose proof (eq_ok f g Bf Bg) as L. rewrite (units_exactly _ _ Uf), (units_exactly _ _ Ug) in L. unfold same in L.
  destruct (feq f g), (Z.eqb_spec u v); auto; exfalso.
  - destruct (proj1 L eq_refl) as [X _]. congruence.
  - assert (false = true); [|discriminate]. apply L. split; congruence.
Qed.
Lemma send_sqrt m z : 0 <= z < 2 ^ 52 ->
  (forall t, 0 <= t -> t * t = z -> send0 m (VInt z) "sqrt" = Ok (VInt t)) /\
  ((forall t, t * t <> z) -> exists f, send0 m (VInt z) "sqrt" = Ok (VDbl f) /\ next_to_root f z).
Proof.
  intros H. destruct (Z.eq_dec z 0) as [->|Nz].
  { split.
    - intros t Ht Et. assert (t = 0) as -> by nia. destruct m; vm_compute; reflexivity.
    - intros X. exfalso. apply (X 0). reflexivity. }
  assert (H' : 0 < z < 2 ^ 52) by lia.
  pose proof (root_next z H') as RN. destruct RN as [B [u [U RN]]].
  set (t := Z.sqrt z). destruct (Z.sqrt_spec z ltac:(lia)) as [T1 T2]. fold t in T1, T2. rewrite <- Z.add_1_r in T2.
  assert (t0 : 0 <= t) by apply Z.sqrt_nonneg.
  assert (Ht : t < 2 ^ 26) by (apply sq_lt; lia).
  pose proof scale_pos as S.
  destruct (int_exact t ltac:(lia)) as [Bt Ut].
  assert (Lo : t * unit_scale <= u). { apply (proj1 (RN _ _ Bt Ut ltac:(nia))). nia. }
  assert (Hi : u < (t + 1) * unit_scale).
  { set (w := ((t + 1) * 2 ^ 27 - 1)).
    assert (Ew : unit_scale = 2 ^ 27 * big 1047) by reflexivity. assert (P27 : 0 < big 1047) by (apply pow_pos; lia).
    destruct (root_ok z H') as (k & q & V & Hk & Hq & [S1 S2] & _ & U' & _ & _ & N2).
    assert (V = u) as -> by congruence.
    assert (Fw : fits (w * big 1047)) by (exists w, (-27); split; [unfold w; lia|]; split; [lia|]; reflexivity).
    assert (u <= w * big 1047); [|rewrite Ew; unfold w in *; nia].
    apply N2; auto.
    assert (Ek : big 1047 = 2 ^ (k - 27) * 2 ^ (1074 - k)) by (unfold big; rewrite <- pow_split by lia; f_equal; lia).
    assert (Ek2 : 2 ^ k = 2 ^ 27 * 2 ^ (k - 27)) by (rewrite <- pow_split by lia; f_equal; lia).
    assert (Pk := pow_pos (k - 27) ltac:(lia)). assert (Pj := pow_pos (1074 - k) ltac:(lia)).
    rewrite Ek, Z.mul_assoc. apply Z.mul_le_mono_nonneg_r; [lia|].
    set (y := 2 ^ (k - 27)) in *. rewrite Ek2 in *.
    assert (W : z * (2 ^ 27 * y) * (2 ^ 27 * y) <= (w * y) * (w * y)).
    { replace (z * (2 ^ 27 * y) * (2 ^ 27 * y)) with (z * (2 ^ 27 * 2 ^ 27) * (y * y)) by ring.
      replace ((w * y) * (w * y)) with (w * w * (y * y)) by ring. apply Z.mul_le_mono_nonneg_r; [nia|].
      assert (z <= (t + 1) * (t + 1) - 1) by lia. unfold w. nia. }
    assert (w0 : 0 <= w * y) by (unfold w; nia).
    assert (q <= w * y) by (apply sq_le; lia).
    destruct (Z.eqb_spec (q * q) (z * (2 ^ 27 * y) * (2 ^ 27 * y))); [lia|].
    destruct (Z.eq_dec q (w * y)) as [Eq|]; [rewrite <- Eq in W; lia|lia]. }
  assert (TR : py_int_of_float m (fsqrt (float_of_Z z)) = Ok t).
  { unfold py_int_of_float. rewrite (trunc_is _ _ t B U) by (split; intros; nia).
    destruct m; [rewrite sqrt_fits_word by lia|]; reflexivity. }
  assert (ES : send0 m (VInt z) "sqrt" = if u =? t * unit_scale then Ok (VInt t) else Ok (VDbl (fsqrt (float_of_Z z)))).
  { change (send0 m (VInt z) "sqrt") with (p_sqrt m (VInt z)). unfold p_sqrt.
    destruct (Z.ltb_spec z 0); [lia|]. rewrite tofloat_ok by lia. cbn [bind]. rewrite TR. cbn [bind]. rewrite tofloat_ok by lia. cbn [bind].
    rewrite (feq_units _ _ _ _ B Bt U Ut). reflexivity. }
  rewrite ES. split.
  - intros t' Ht' Et. assert (t' = t) as -> by nia.
    assert (u = t * unit_scale) as ->; [|rewrite Z.eqb_refl; reflexivity].
    apply Z.le_antisymm; auto. apply (proj2 (RN _ _ Bt Ut ltac:(nia))). nia.
  - intros X. exists (fsqrt (float_of_Z z)). destruct (Z.eqb_spec u (t * unit_scale)) as [E|E].
    + exfalso. specialize (X t).
      set (w := t * 2 ^ 27 + 1).
      assert (Ew : unit_scale = 2 ^ 27 * big 1047) by reflexivity. assert (P27 : 0 < big 1047) by (apply pow_pos; lia).
      destruct (root_ok z H') as (k & q & V & Hk & Hq & [S1 S2] & _ & U' & _ & N1 & _).
      assert (V = u) as -> by congruence.
      assert (Fw : fits (w * big 1047)) by (exists w, (-27); split; [unfold w; lia|]; split; [lia|]; reflexivity).
      assert (w * big 1047 <= u); [|rewrite E, Ew in *; unfold w in *; nia].
      apply N1; auto.
      assert (Ek : big 1047 = 2 ^ (k - 27) * 2 ^ (1074 - k)) by (unfold big; rewrite <- pow_split by lia; f_equal; lia).
      assert (Ek2 : 2 ^ k = 2 ^ 27 * 2 ^ (k - 27)) by (rewrite <- pow_split by lia; f_equal; lia).
      assert (Pk := pow_pos (k - 27) ltac:(lia)). assert (Pj := pow_pos (1074 - k) ltac:(lia)).
      rewrite Ek, Z.mul_assoc. apply Z.mul_le_mono_nonneg_r; [lia|].
      set (y := 2 ^ (k - 27)) in *. rewrite Ek2 in *.
      assert (W : (w * y) * (w * y) <= z * (2 ^ 27 * y) * (2 ^ 27 * y)).
      { replace (z * (2 ^ 27 * y) * (2 ^ 27 * y)) with (z * (2 ^ 27 * 2 ^ 27) * (y * y)) by ring.
        replace ((w * y) * (w * y)) with (w * w * (y * y)) by ring. apply Z.mul_le_mono_nonneg_r; [nia|].
        assert (t * t + 1 <= z) by lia. unfold w. nia. }
      assert (w * y < q + 1); [|lia]. apply sq_lt; lia.
    + split; auto. split; auto. exists u. auto.
Qed.
