(** The operations on doubles round correctly, from FltProofs. *)
From Coq Require Import ZArith Bool String List Lia Floats.SpecFloat.
From Verif Require Import Base NumModel NumSpec DblSpec DblProofs DblRound DblArith FltSpec FltProofs.
Import ListNotations.
Open Scope Z_scope.

Lemma made_finite s N e : -1074 <= e -> 0 <= N <= 2 ^ 53 -> (2 ^ 52 <= N \/ e = -1074) -> made s N e <> S754_infinity s ->
  binary64 (made s N e) /\ units (made s N e) = Some ((if s then -1 else 1) * (N * 2 ^ (e + 1074))) /\
  negative (made s N e) = s /\ (Z.even N = true -> even_last (made s N e)).
Proof.
  intros He HN Hc. unfold made. destruct (Z.eqb_spec N 0) as [->|N0].
  - intros _. cbn [binary64 units negative even_last]. repeat split; auto. f_equal. destruct s; reflexivity.
  - destruct (Z.eqb_spec N (2 ^ 53)) as [->|N1].
    + destruct (Z.leb_spec (e + 1) 971) as [L|L]; [|congruence]. intros _.
      split; [cbn [binary64]; lia|]. split; [|split; reflexivity].
      cbn [units]. f_equal. replace (e + 1 + 1074) with (e + 1074 + 1) by lia. rewrite Z.pow_add_r by lia.
      change (Zpos (2 ^ 52)) with (2 ^ 52). change (2 ^ 53) with (2 ^ 52 * 2 ^ 1). ring.
    + destruct (Z.leb_spec e 971) as [L|L]; [|congruence]. intros _.
      assert (E : Zpos (Z.to_pos N) = N) by (apply Z2Pos.id; lia).
      split; [cbn [binary64]; rewrite E; lia|]. split; [cbn [units]; rewrite E; f_equal; ring|].
      split; [reflexivity|]. cbn [even_last]. rewrite E. auto.
Qed.
Lemma made_infinite s N e : made s N e = S754_infinity s -> binary64 (made s N e) /\ negative (made s N e) = s.
Proof. intros ->. split; [exact I|reflexivity]. Qed.
Lemma fits_units g w : binary64 g -> units g = Some w -> fits (Z.abs w).
Proof.
  intros B U. destruct (Z.eq_dec w 0) as [->|N]; [exists 0, (-1074); split; [lia|split; [lia|reflexivity]]|].
  destruct (binary64_shape _ _ B U N) as (s & m & e & -> & C & _ & E & _). rewrite E. apply canonical_fits; auto.
Qed.
Definition fraction (p q a : Z) : comparison := (a * q ?= Z.abs p * Q).
Lemma fraction_mono p q : 0 < q -> forall a b, a < b -> fraction p q b <> Gt -> fraction p q a = Lt.
Proof. intros Hq a b L N. unfold fraction in *. apply Z.compare_lt_iff. apply (proj1 (Z.compare_le_iff _ _)) in N. apply Z.lt_le_trans with (2 := N). apply Zmult_lt_compat_r; auto. Qed.

Lemma rounds p q mx ex lx : 0 < q -> p <> 0 -> 0 <= mx -> - base < ex -> ex <= expo (Zdigits2 mx + ex) ->
  located (fraction p q) mx ex lx -> rounds_to p q (binary_round_aux fprec femax (p <? 0) mx ex lx).
Proof.
  intros Hq Hp Hm Lb He X. destruct (aux_near _ (fraction_mono p q Hq) (p <? 0) mx ex lx Hm Lb He X) as (N & e & Le & HN & Hc & E & Below & Above & Inf).
  rewrite E. pose proof QH_pos as QP. pose proof Q_QH as EQ. set (s := p <? 0) in *. set (V := N * 2 ^ (e + 1074)) in *.
  assert (V0 : 0 <= V) by (unfold V; pose proof (pow_pos (e + 1074) ltac:(lia)); nia).
  assert (Es : p = (if s then -1 else 1) * Z.abs p) by (unfold s; destruct (Z.ltb_spec p 0); lia).
  assert (Lim : fraction p q (overflow_limit * Q) <> Gt <-> overflow_limit * q <= Z.abs p).
  { unfold fraction. rewrite Z.compare_le_iff. replace (overflow_limit * Q * q) with (overflow_limit * q * Q) by ring.
    symmetry. apply Z.mul_le_mono_pos_r. lia. }
  rewrite Lim in Inf. unfold rounds_to. fold s.
  destruct (Z.leb_spec (overflow_limit * q) (Z.abs p)) as [L|L].
  - pose proof (proj2 Inf L) as I. destruct (made_infinite s N e I) as [A B]. split; [exact A|]. split; [auto|exact I].
  - assert (I : made s N e <> S754_infinity s) by (intros I; apply Inf in I; lia).
    destruct (made_finite s N e Le HN Hc I) as (A & B & C & D). split; [exact A|]. split; [auto|].
    exists ((if s then -1 else 1) * V). split; [exact B|]. intros g w Bg Ug.
    set (w' := (if s then -1 else 1) * w).
    assert (EV : Z.abs ((if s then -1 else 1) * V * q - p) = Z.abs (V * q - Z.abs p)) by (rewrite Es at 1; destruct s; lia).
    assert (Ew : Z.abs (w * q - p) = Z.abs (w' * q - Z.abs p)) by (unfold w'; rewrite Es at 1; destruct s; lia).
    rewrite EV, Ew. assert (F : 0 <= w' -> fits w').
    { intros P. pose proof (fits_units _ _ Bg Ug) as F. replace w' with (Z.abs w) by (unfold w' in *; destruct s; lia). exact F. }
    assert (F0 : fits 0) by (exists 0, (-1074); split; [lia|split; [lia|reflexivity]]).
    assert (Cm : forall P, fraction p q ((P + V) * QH) = ((P + V) * q ?= 2 * Z.abs p)).
    { intros P. unfold fraction. rewrite EQ. replace ((P + V) * QH * q) with ((P + V) * q * QH) by ring.
      replace (Z.abs p * (2 * QH)) with (2 * Z.abs p * QH) by ring. symmetry. apply Zmult_compare_compat_r. lia. }
    assert (Ex : forall P, (P + V) * q = P * q + V * q) by (intros; ring).
    assert (Vq : 0 <= V * q) by (apply Z.mul_nonneg_nonneg; lia).
    assert (Nv : (if s then -1 else 1) * V = w -> w' = V) by (unfold w'; destruct s; lia).
    assert (Nv' : w' = V -> w = (if s then -1 else 1) * V) by (unfold w'; destruct s; lia).
    destruct (Z.lt_trichotomy w' V) as [T|[T|T]].
    + pose proof (Zmult_lt_compat_r _ _ _ Hq T) as Tq. destruct (Z.le_gt_cases 0 w') as [P|P].
      * destruct (Below w' (F P) T) as [G1 G2]. rewrite Cm, Ex in *. apply (proj1 (Z.compare_le_iff _ _)) in G1. rewrite Z.compare_eq_iff in G2.
        assert (P' : 0 <= w' * q) by (apply Z.mul_nonneg_nonneg; lia). clear - G1 G2 Tq P' D Vq Nv.
        set (x := w' * q) in *. set (y := V * q) in *. clearbody x y. split; [lia|]. intros _ Eq. apply D, G2. lia.
      * assert (G : V * q <= 2 * Z.abs p).
        { destruct (Z.eq_dec V 0) as [->|NV]; [lia|]. destruct (Below 0 F0 ltac:(lia)) as [G1 _]. rewrite Cm, Ex in G1. apply (proj1 (Z.compare_le_iff _ _)) in G1. lia. }
        assert (P' : w' * q < 0) by (apply Z.mul_neg_pos; lia). clear - G P' Vq.
        set (x := w' * q) in *. set (y := V * q) in *. clearbody x y. split; [lia|]. intros _ Eq. exfalso. lia.
    + rewrite T. split; [lia|]. intros Nw _. exfalso. apply Nw, Nv', T.
    + pose proof (Zmult_lt_compat_r _ _ _ Hq T) as Tq. destruct (Above w' (F ltac:(lia)) T) as [G1 G2]. rewrite Cm, Ex in *. apply (proj1 (Z.compare_ge_iff _ _)) in G1. rewrite Z.compare_eq_iff in G2.
      clear - G1 G2 Tq D Vq. set (x := w' * q) in *. set (y := V * q) in *. clearbody x y. split; [lia|]. intros _ Eq. apply D, G2. lia.
Qed.

(** * What is a double already *)
Lemma units_bound f u : binary64 f -> units f = Some u -> Z.abs u < overflow_limit.
Proof.
  intros B U. destruct (Z.eq_dec u 0) as [->|N]; [unfold overflow_limit; pose proof (pow_pos 2044 ltac:(lia)); lia|].
  destruct (binary64_shape _ _ B U N) as (s & m & e & -> & (C & C' & _) & L & E & _). rewrite E. unfold overflow_limit.
  assert (2 ^ (e + 1074) <= 2 ^ 2045) by (apply Z.pow_le_mono_r; lia). change (2 ^ 2045) with (2 * 2 ^ 2044) in *.
  pose proof (pow_pos 2044 ltac:(lia)). pose proof (pow_pos (e + 1074) ltac:(lia)).
  set (X := 2 ^ 2044) in *. set (Y := 2 ^ (e + 1074)) in *. clearbody X Y. nia.
Qed.
Lemma rounds_self f u : binary64 f -> units f = Some u -> rounds_to u 1 f.
Proof.
  intros B U. pose proof (units_bound _ _ B U) as L. split; [exact B|]. split.
  - intros N. destruct (binary64_shape _ _ B U N) as (s & m & e & -> & _ & _ & _ & ->). reflexivity.
  - destruct (Z.leb_spec (overflow_limit * 1) (Z.abs u)); [lia|]. exists u. split; [exact U|]. intros g w Bg Ug. split; [lia|]. intros N Eq. lia.
Qed.
Lemma rounds_zero q b : 0 < q -> rounds_to 0 q (S754_zero b).
Proof.
  intros Hq. split; [exact I|]. split; [congruence|]. assert (L : 0 < overflow_limit) by (unfold overflow_limit; pose proof (pow_pos 2044 ltac:(lia)); lia).
  destruct (Z.leb_spec (overflow_limit * q) (Z.abs 0)); [nia|]. exists 0. split; [reflexivity|]. intros g w Bg Ug. split; [lia|]. intros N Eq. exfalso. nia.
Qed.

(** * Integers and sums *)
Lemma rounds_round (s : bool) m e : -1074 <= e -> let p := (if s then -1 else 1) * (Zpos m * 2 ^ (e + 1074)) in
  rounds_to p 1 (binary_round fprec femax s m e).
Proof.
  intros He p. unfold binary_round. change (fexp fprec femax (Zpos (digits2_pos m) + e)) with (expo (Zpos (digits2_pos m) + e)).
  set (e' := expo (Zpos (digits2_pos m) + e)).
  pose proof (align_eq m e e') as A. assert (He' : -1074 <= e') by (unfold e'; rewrite expo_eq; lia).
  assert (HD : let '(mz, ez) := shl_align m e e' in ez <= expo (Zpos (digits2_pos mz) + ez)).
  { unfold shl_align. destruct (e' - e) as [|d|d] eqn:E.
    - unfold e' in *. lia.
    - unfold e' in *. lia.
    - destruct (digits_pos m) as [P1 P2]. destruct (digits_pos (shift_pos d m)) as [Q1 Q2]. rewrite shift_pos_eq in *.
      set (dm := Zpos (digits2_pos m)) in *. set (dz := Zpos (digits2_pos (shift_pos d m))) in *.
      assert (dm + Zpos d <= dz).
      { destruct (Z.le_gt_cases (dm + Zpos d) dz); auto. exfalso.
        assert (2 ^ dz <= 2 ^ (dm - 1 + Zpos d)) by (apply Z.pow_le_mono_r; unfold dm; lia).
        rewrite pow_split in * by (unfold dm; lia). assert (B := pow_pos (Zpos d) ltac:(lia)). nia. }
      assert (Ee : e' = Z.max (dm + e - 53) (-1074)) by (unfold e'; apply expo_eq). rewrite (expo_eq (dz + e')). lia. }
  destruct (shl_align m e e') as [mz ez]. destruct A as [A1 A2]; [lia|lia|].
  assert (P0 := pow_pos (e + 1074) ltac:(lia)). assert (G0 : 0 < Zpos m * 2 ^ (e + 1074)) by (apply Z.mul_pos_pos; lia).
  assert (Es : s = (p <? 0)) by (unfold p; destruct s; symmetry; [apply Z.ltb_lt|apply Z.ltb_ge]; lia).
  rewrite Es. apply rounds; [lia|unfold p; destruct s; lia|lia|unfold base; lia|exact HD|].
  cbn [located]. unfold fraction. apply Z.compare_eq_iff. rewrite W_units by lia.
  replace (Z.abs p) with (Zpos m * 2 ^ (e + 1074)) by (unfold p; destruct s; lia). rewrite <- A1. ring.
Qed.
Lemma rounds_normalize z e b : -1074 <= e -> rounds_to (z * 2 ^ (e + 1074)) 1 (binary_normalize fprec femax z e b).
Proof.
  intros He. destruct z as [|m|m]; cbn [binary_normalize].
  - rewrite Z.mul_0_l. apply rounds_zero. lia.
  - pose proof (rounds_round false m e He) as R. cbv zeta in R. rewrite Z.mul_1_l in R. exact R.
  - pose proof (rounds_round true m e He) as R. cbv zeta in R. change (Zneg m) with (- Zpos m).
    replace (- Zpos m * 2 ^ (e + 1074)) with (-1 * (Zpos m * 2 ^ (e + 1074))) by ring. exact R.
Qed.
Lemma rounds_int z : rounds_to (z * unit_scale) 1 (float_of_Z z).
Proof. exact (rounds_normalize z 0 false ltac:(lia)). Qed.

Lemma rounds_sum f g u v : binary64 f -> binary64 g -> units f = Some u -> units g = Some v ->
  rounds_to (u + v) 1 (fadd f g) /\ rounds_to (u - v) 1 (fsub f g).
Proof.
  intros Bf Bg Uf Ug. destruct f as [sf|[]| |sf mf ef]; try discriminate Uf; destruct g as [sg|[]| |sg mg eg]; try discriminate Ug.
  - cbn [units] in Uf, Ug. injection Uf as <-. injection Ug as <-. unfold fadd, fsub. cbn [SFadd SFsub].
    destruct sf, sg; cbn [Bool.eqb negb]; split; apply (rounds_zero 1); lia.
  - cbn [units] in Uf. injection Uf as <-. unfold fadd, fsub. cbn [SFadd SFsub]. split.
    + apply rounds_self; auto.
    + rewrite Z.sub_0_l. apply rounds_self; [exact Bg|]. exact (units_opp _ _ Ug).
  - cbn [units] in Ug. injection Ug as <-. unfold fadd, fsub. cbn [SFadd SFsub]. rewrite Z.add_0_r, Z.sub_0_r.
    split; apply rounds_self; auto.
  - unfold fadd, fsub. cbn [SFadd SFsub]. destruct Bf as (_ & Hx & _). destruct Bg as (_ & Hy & _). set (ez := Z.min ef eg).
    pose proof (align_eq mf ef ez ltac:(lia) ltac:(lia)) as A. pose proof (align_eq mg eg ez ltac:(lia) ltac:(lia)) as B.
    destruct (shl_align mf ef ez) as [mx' ex'], (shl_align mg eg ez) as [my' ey']. cbn [fst].
    destruct A as [A A'], B as [B B']. replace (Z.min ef ez) with ez in A' by lia. replace (Z.min eg ez) with ez in B' by lia. subst ex' ey'.
    assert (Eu : u = cond_Zopp sf (Zpos mx') * 2 ^ (ez + 1074)).
    { cbn [units] in Uf. injection Uf as <-. rewrite <- Z.mul_assoc, <- A. destruct sf; cbn [cond_Zopp]; ring. }
    assert (Ev : v = cond_Zopp sg (Zpos my') * 2 ^ (ez + 1074)).
    { cbn [units] in Ug. injection Ug as <-. rewrite <- Z.mul_assoc, <- B. destruct sg; cbn [cond_Zopp]; ring. }
    rewrite Eu, Ev, <- Z.mul_add_distr_r, <- Z.mul_sub_distr_r. split; apply rounds_normalize; lia.
Qed.

(** * Products *)
Lemma finite_units (s : bool) m e u : -1074 <= e -> units (S754_finite s m e) = Some u ->
  Z.abs u = Zpos m * 2 ^ (e + 1074) /\ u <> 0 /\ (u <? 0) = s.
Proof.
  intros He U. cbn [units] in U. injection U as <-. pose proof (pow_pos (e + 1074) ltac:(lia)).
  assert (0 < Zpos m * 2 ^ (e + 1074)) by (apply Z.mul_pos_pos; lia).
  rewrite <- Z.mul_assoc. set (x := Zpos m * 2 ^ (e + 1074)) in *. clearbody x.
  destruct s; (split; [lia|split; [lia|]]); [apply Z.ltb_lt|apply Z.ltb_ge]; lia.
Qed.
Lemma sign_mul u v : u <> 0 -> v <> 0 -> (u * v <? 0) = xorb (u <? 0) (v <? 0).
Proof. intros Hu Hv. destruct (Z.ltb_spec u 0), (Z.ltb_spec v 0), (Z.ltb_spec (u * v) 0); cbn; auto; exfalso; nia. Qed.
Lemma digits_mul m n : Zpos (digits2_pos m) + Zpos (digits2_pos n) - 1 <= Zpos (digits2_pos (m * n)).
Proof.
  destruct (digits_pos m) as [A1 A2], (digits_pos n) as [B1 B2], (digits_pos (m * n)) as [C1 C2].
  set (a := Zpos (digits2_pos m)) in *. set (b := Zpos (digits2_pos n)) in *. set (c := Zpos (digits2_pos (m * n))) in *.
  destruct (Z.le_gt_cases (a + b - 1) c) as [L|L]; auto. exfalso.
  assert (2 ^ c <= 2 ^ (a - 1 + (b - 1))) by (apply Z.pow_le_mono_r; unfold a, b in *; lia).
  rewrite pow_split in * by (unfold a, b; lia). rewrite Pos2Z.inj_mul in C2.
  pose proof (pow_pos (a - 1) ltac:(unfold a; lia)). pose proof (pow_pos (b - 1) ltac:(unfold b; lia)). nia.
Qed.
Lemma digits_full m : 2 ^ 52 <= Zpos m -> 53 <= Zpos (digits2_pos m).
Proof.
  intros L. destruct (digits_pos m) as [A B]. destruct (Z.le_gt_cases 53 (Zpos (digits2_pos m))); auto. exfalso.
  assert (2 ^ Zpos (digits2_pos m) <= 2 ^ 52) by (apply Z.pow_le_mono_r; lia). lia.
Qed.
Lemma rounds_mul f g u v : binary64 f -> binary64 g -> units f = Some u -> units g = Some v ->
  rounds_to (u * v) unit_scale (fmul f g).
Proof.
  intros Bf Bg Uf Ug. pose proof scale_pos as S.
  destruct f as [sf|[]| |sf mf ef]; try discriminate Uf; destruct g as [sg|[]| |sg mg eg]; try discriminate Ug; unfold fmul; cbn [SFmul].
  1-2: cbn [units] in Uf; injection Uf as <-; rewrite Z.mul_0_l; apply rounds_zero; exact S.
  1: cbn [units] in Ug; injection Ug as <-; rewrite Z.mul_0_r; apply rounds_zero; exact S.
  destruct Bf as (Mf & Hf & Cf), Bg as (Mg & Hg & Cg).
  destruct (finite_units _ _ _ _ (proj1 Hf) Uf) as (Au & Nu & Su). destruct (finite_units _ _ _ _ (proj1 Hg) Ug) as (Av & Nv & Sv).
  assert (Es : xorb sf sg = (u * v <? 0)) by (rewrite sign_mul, Su, Sv; auto). rewrite Es.
  apply rounds; [exact S|nia|lia|unfold base; lia| |].
  - rewrite expo_eq. change (Zdigits2 (Zpos (mf * mg))) with (Zpos (digits2_pos (mf * mg))). pose proof (digits_mul mf mg) as D.
    destruct Cf as [Cf|Cf]; [pose proof (digits_full _ Cf); lia|]. destruct Cg as [Cg|Cg]; [pose proof (digits_full _ Cg); lia|]. lia.
  - cbn [located]. unfold fraction. apply Z.compare_eq_iff. rewrite Z.abs_mul, Au, Av, Pos2Z.inj_mul.
    unfold W, Q, unit_scale, base.
    replace (Zpos mf * 2 ^ (ef + 1074) * (Zpos mg * 2 ^ (eg + 1074)) * 2 ^ (2200 - 1074))
      with (Zpos mf * Zpos mg * (2 ^ (ef + 1074) * 2 ^ (eg + 1074) * 2 ^ (2200 - 1074))) by ring.
    rewrite <- !Z.pow_add_r by lia. rewrite <- Z.mul_assoc, <- Z.pow_add_r by lia. f_equal. f_equal. lia.
Qed.

(** * Quotients *)
(** A quotient of [m1 * 2^e1] and [m2 * 2^e2]. *)
Lemma rounds_quotient p q m1 e1 m2 e2 : 0 < q -> p <> 0 -> 0 < m1 -> 0 < m2 -> -2100 <= e1 - e2 -> -1074 <= e2 ->
  (forall a, fraction p q a = (a * m2 * 2 ^ (e2 + 1074) ?= m1 * 2 ^ (e1 + 1074 + base))) -> -1074 <= e1 ->
  rounds_to p q (let '(mz, ez, lz) := SFdiv_core_binary fprec femax m1 e1 m2 e2 in binary_round_aux fprec femax (p <? 0) mz ez lz).
Proof.
  intros Hq Hp H1 H2 Hd He2 HF He1. unfold SFdiv_core_binary.
  set (d1 := Zdigits2 m1). set (d2 := Zdigits2 m2).
  change (fexp fprec femax (d1 + e1 - (d2 + e2))) with (expo (d1 + e1 - (d2 + e2))).
  set (e' := Z.min (expo (d1 + e1 - (d2 + e2))) (e1 - e2)). set (s := e1 - e2 - e').
  assert (Hs : 0 <= s) by (unfold s, e'; lia).
  assert (Ee : e' <= expo (d1 + e1 - (d2 + e2)) /\ e' <= e1 - e2 /\ -2100 <= e').
  { unfold e'. pose proof (expo_eq (d1 + e1 - (d2 + e2))). lia. }
  assert (Em : match s with Zpos _ => Z.shiftl m1 s | Z0 => m1 | Zneg _ => 0 end = m1 * 2 ^ s).
  { destruct s as [|k|k] eqn:Es; [rewrite Z.mul_1_r; reflexivity|apply Z.shiftl_mul_pow2; lia|lia]. }
  rewrite Em. clear Em. set (m' := m1 * 2 ^ s).
  pose proof (Z_div_mod m' m2 ltac:(lia)) as DM. destruct (Z.div_eucl m' m2) as [k r]. destruct DM as [DM Hr].
  assert (Ps := pow_pos s Hs). assert (Hm' : 0 < m') by (unfold m'; nia).
  assert (Hk : 0 <= k) by nia.
  apply rounds; auto; [unfold base; lia| |].
  - (* enough digits *)
    destruct (digits_ok m1 H1) as [[A1 A2] A3], (digits_ok m2 H2) as [[B1 B2] B3]. fold d1 in A1, A2, A3. fold d2 in B1, B2, B3.
    assert (G : d1 + s - d2 <= Zdigits2 k).
    { destruct (Z.le_gt_cases (d1 + s - d2) 0) as [L|L].
      - assert (0 <= Zdigits2 k) by (destruct k; cbn; lia). lia.
      - assert (K : 2 ^ (d1 + s - d2 - 1) <= k).
        { destruct (Z.le_gt_cases (2 ^ (d1 + s - d2 - 1)) k) as [|T]; auto. exfalso.
          assert (m' < 2 ^ (d1 + s - d2 - 1) * m2) by nia.
          assert (2 ^ (d1 - 1) * 2 ^ s <= m') by (unfold m'; nia).
          assert (2 ^ (d1 + s - d2 - 1) * m2 <= 2 ^ (d1 + s - d2 - 1) * 2 ^ d2) by (pose proof (pow_pos (d1 + s - d2 - 1) ltac:(lia)); nia).
          rewrite <- Z.pow_add_r in * by lia. replace (d1 + s - d2 - 1 + d2) with (d1 - 1 + s) in * by lia. lia. }
        pose proof (pow_pos (d1 + s - d2 - 1) ltac:(lia)). destruct (digits_ok k ltac:(lia)) as [[C1 C2] C3].
        destruct (Z.le_gt_cases (d1 + s - d2) (Zdigits2 k)) as [|T]; auto. exfalso.
        assert (2 ^ Zdigits2 k <= 2 ^ (d1 + s - d2 - 1)) by (apply Z.pow_le_mono_r; lia). lia. }
    destruct Ee as [Ee _]. rewrite expo_eq in *. unfold s in G. lia.
  - (* where the quotient lies *)
    assert (LH : forall c, fraction p q ((2 * k + c) * H e') = (c * m2 ?= 2 * r)).
    { intros c. rewrite HF. unfold H.
      assert (Pe : 0 < 2 ^ (e2 + e' + 1074 + base - 1)) by (apply pow_pos; unfold base; lia).
      replace ((2 * k + c) * 2 ^ (e' + base - 1) * m2 * 2 ^ (e2 + 1074)) with ((2 * k + c) * m2 * 2 ^ (e2 + e' + 1074 + base - 1)).
      2: { replace (e2 + e' + 1074 + base - 1) with (e' + base - 1 + (e2 + 1074)) by lia. rewrite (Z.pow_add_r 2 (e' + base - 1)) by (unfold base; lia). ring. }
      replace (m1 * 2 ^ (e1 + 1074 + base)) with (2 * m' * 2 ^ (e2 + e' + 1074 + base - 1)).
      2: { unfold m'. replace (e1 + 1074 + base) with (1 + (s + (e2 + e' + 1074 + base - 1))) by (unfold s; lia).
           rewrite (Z.pow_add_r 2 1), (Z.pow_add_r 2 s) by (unfold base; lia). change (2 ^ 1) with 2. ring. }
      rewrite <- (Zmult_compare_compat_r _ _ (2 ^ (e2 + e' + 1074 + base - 1))) by lia.
      rewrite DM. destruct (Z.compare_spec (c * m2) (2 * r)); [apply Z.compare_eq_iff|apply Z.compare_lt_iff|apply Z.compare_gt_iff]; nia. }
    pose proof (W_H e' ltac:(unfold base; lia)) as WH.
    assert (L0 : fraction p q (k * W e') = (0 ?= 2 * r)) by (rewrite WH, <- (Z.mul_0_l m2), <- LH; f_equal; ring).
    assert (L1 : fraction p q (k * W e' + H e') = (m2 ?= 2 * r)) by (rewrite WH, <- (Z.mul_1_l m2), <- LH; f_equal; ring).
    assert (L2 : fraction p q ((k + 1) * W e') = (2 * m2 ?= 2 * r)) by (rewrite WH, <- LH; f_equal; ring).
    unfold new_location, new_location_even, new_location_odd.
    assert (Z0 : Zeq_bool r 0 = true -> located (fraction p q) k e' loc_Exact).
    { intros Zr. apply Zeq_bool_eq in Zr. subst r. cbn [located]. rewrite L0. reflexivity. }
    destruct (Z.even m2) eqn:Ev; (destruct (Zeq_bool r 0) eqn:Zr; [auto|]); apply Zeq_bool_neq in Zr.
    + destruct (Z.compare_spec (2 * r) m2); cbn [located]; rewrite ?L0, ?L1, ?L2.
      * apply Z.compare_eq_iff. lia.
      * split; [apply Z.compare_lt_iff|apply Z.compare_gt_iff]; lia.
      * split; [apply Z.compare_lt_iff|apply Z.compare_gt_iff]; lia.
    + assert (Odd : exists o, m2 = 2 * o + 1).
      { assert (Od : Z.odd m2 = true) by (rewrite <- Z.negb_even, Ev; reflexivity). apply Z.odd_spec in Od. destruct Od as [o Ho]. exists o. exact Ho. }
      destruct Odd as [o Ho].
      destruct (Z.compare_spec (2 * r + 1) m2); cbn [located]; rewrite ?L0, ?L1, ?L2;
        (split; [apply Z.compare_lt_iff|apply Z.compare_gt_iff]; lia).
Qed.
Lemma rounds_div f g u v : binary64 f -> binary64 g -> units f = Some u -> units g = Some v -> v <> 0 ->
  rounds_to (Z.sgn v * u * unit_scale) (Z.abs v) (fdiv f g).
Proof.
  intros Bf Bg Uf Ug Nv. pose proof scale_pos as S.
  destruct f as [sf|[]| |sf mf ef]; try discriminate Uf; destruct g as [sg|[]| |sg mg eg]; try discriminate Ug; unfold fdiv; cbn [SFdiv].
  1,3: cbn [units] in Ug; injection Ug as <-; lia.
  1: cbn [units] in Uf; injection Uf as <-; rewrite Z.mul_0_r; apply rounds_zero; lia.
  destruct Bf as (Mf & Hf & Cf), Bg as (Mg & Hg & Cg).
  destruct (finite_units _ _ _ _ (proj1 Hf) Uf) as (Au & Nu & Su). destruct (finite_units _ _ _ _ (proj1 Hg) Ug) as (Av & _ & Sv).
  set (p := Z.sgn v * u * unit_scale).
  assert (Nsv : Z.sgn v <> 0) by lia.
  assert (Np : p <> 0) by (unfold p; nia).
  assert (Es : xorb sf sg = (p <? 0)).
  { unfold p. rewrite sign_mul by nia. rewrite sign_mul by lia. rewrite Su.
    replace (Z.sgn v <? 0) with sg by (rewrite <- Sv; destruct (Z.ltb_spec v 0), (Z.ltb_spec (Z.sgn v) 0); auto; lia).
    replace (unit_scale <? 0) with false by (symmetry; apply Z.ltb_ge; lia). destruct sf, sg; reflexivity. }
  rewrite Es. apply rounds_quotient; try lia; auto.
  intros a. unfold fraction, p. rewrite !Z.abs_mul, Au, Av. rewrite (Z.abs_eq unit_scale) by lia.
  replace (Z.abs (Z.sgn v)) with 1 by lia. rewrite Z.mul_1_l.
  replace (a * (Zpos mg * 2 ^ (eg + 1074))) with (a * Zpos mg * 2 ^ (eg + 1074)) by ring.
  f_equal. unfold unit_scale, Q, base. rewrite <- !Z.mul_assoc. f_equal. rewrite <- !Z.pow_add_r by lia. try (f_equal; lia).
Qed.
Lemma rounds_truediv x y : y <> 0 -> exists f, rounds_to (Z.sgn y * x * unit_scale) (Z.abs y) f /\
  big_truediv x y = match f with S754_infinity _ => Err OverflowError | f => Ok f end.
Proof.
  intros Ny. pose proof scale_pos as S. destruct (Z.eq_dec x 0) as [->|Nx].
  - assert (E' : big_truediv 0 y = Ok (S754_zero (y <? 0))) by (destruct y; [lia|reflexivity|reflexivity]). exists (S754_zero (y <? 0)).
    split; [rewrite Z.mul_0_r; apply rounds_zero; lia|exact E'].
  - set (p := Z.sgn y * x * unit_scale). assert (Nsy : Z.sgn y <> 0) by lia. assert (Np : p <> 0) by (unfold p; nia).
    assert (R : rounds_to p (Z.abs y) (let '(mz, ez, lz) := SFdiv_core_binary fprec femax (Z.abs x) 0 (Z.abs y) 0 in
                  binary_round_aux fprec femax (p <? 0) mz ez lz)).
    { apply rounds_quotient; try lia. intros a. unfold fraction, p. rewrite !Z.abs_mul. rewrite (Z.abs_eq unit_scale) by lia.
      replace (Z.abs (Z.sgn y)) with 1 by lia. rewrite Z.mul_1_l. change (2 ^ (0 + 1074)) with unit_scale.
      replace (Z.abs x * unit_scale * Q) with (Z.abs x * Q * unit_scale) by ring.
      replace (Z.abs x * 2 ^ (0 + 1074 + base)) with (Z.abs x * Q * unit_scale * unit_scale).
      2: { rewrite <- !Z.mul_assoc. f_equal. }
      apply Zmult_compare_compat_r. lia. }
    assert (Es : xorb (x <? 0) (y <? 0) = (p <? 0)).
    { unfold p. rewrite sign_mul by nia. rewrite sign_mul by lia.
      replace (Z.sgn y <? 0) with (y <? 0) by (destruct (Z.ltb_spec y 0), (Z.ltb_spec (Z.sgn y) 0); auto; lia).
      replace (unit_scale <? 0) with false by (symmetry; apply Z.ltb_ge; lia). destruct (x <? 0), (y <? 0); reflexivity. }
    assert (Eb : big_truediv x y = match (let '(mz, ez, lz) := SFdiv_core_binary fprec femax (Z.abs x) 0 (Z.abs y) 0 in
                  binary_round_aux fprec femax (p <? 0) mz ez lz) with S754_infinity _ => Err OverflowError | f => Ok f end).
    { rewrite <- Es. unfold big_truediv. destruct y; [lia| |]; (destruct x; [lia| |]); destruct (SFdiv_core_binary _ _ _ _ _ _) as [[? ?] ?]; reflexivity. }
    match type of R with rounds_to _ _ ?F => exists F; split; [exact R|]; rewrite Eb; generalize F; intros []; reflexivity end.
Qed.
