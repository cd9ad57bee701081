(** Remainders and square roots of doubles, and what correct rounding implies. *)
From Coq Require Import ZArith Bool String List Lia Floats.SpecFloat.
From Verif Require Import Base NumModel NumSpec DblSpec DblProofs DblRound DblArith FltModel FltSpec FltProofs FltOps.
Import ListNotations.
Open Scope Z_scope.

(** * Square roots *)
Definition square (p a : Z) : comparison := if a <? 0 then Lt else (a * a ?= p * 2 ^ (2 * base - 1074)).
Lemma square_mono p : forall a b, a < b -> square p b <> Gt -> square p a = Lt.
Proof.
  intros a b L N. unfold square in *. destruct (Z.ltb_spec a 0) as [A|A]; auto. destruct (Z.ltb_spec b 0) as [B|B]; [lia|].
  apply (proj1 (Z.compare_le_iff _ _)) in N. apply Z.compare_lt_iff. apply Z.lt_le_trans with (2 := N). apply Z.square_lt_mono_nonneg; lia.
Qed.
Lemma rounds_sqrt m e : binary64 (S754_finite false m e) ->
  rounds_to_root (Zpos m * 2 ^ (e + 1074)) (fsqrt (S754_finite false m e)).
Proof.
  intros B. destruct B as (Hm & He & Hc). set (p := Zpos m * 2 ^ (e + 1074)).
  assert (Pe := pow_pos (e + 1074) ltac:(lia)). assert (Pp : 0 < p) by (unfold p; apply Z.mul_pos_pos; lia).
  unfold fsqrt, SFsqrt, SFsqrt_core_binary. set (d := Zdigits2 (Zpos m)).
  change (fexp fprec femax (Z.div2 (d + e + 1))) with (expo (Z.div2 (d + e + 1))).
  set (e' := Z.min (expo (Z.div2 (d + e + 1))) (Z.div2 e)). set (s := e - 2 * e').
  pose proof (expo_eq (Z.div2 (d + e + 1))) as Ex. rewrite Z.div2_div in *. pose proof (Z.div_mod e 2 ltac:(lia)) as De. pose proof (Z.mod_pos_bound e 2 ltac:(lia)) as Me.
  assert (Be : -1074 <= e' /\ e' <= expo ((d + e + 1) / 2) /\ 2 * e' <= e) by (unfold e'; rewrite Z.div2_div; lia).
  assert (Hs : 0 <= s) by (unfold s; lia).
  assert (Em : match s with Zpos _ => Z.shiftl (Zpos m) s | Z0 => Zpos m | Zneg _ => 0 end = Zpos m * 2 ^ s).
  { destruct s as [|k|k] eqn:Es; [rewrite Z.mul_1_r; reflexivity|apply Z.shiftl_mul_pow2; lia|lia]. }
  rewrite Em. clear Em. set (m' := Zpos m * 2 ^ s). assert (Ps := pow_pos s Hs). assert (Hm' : 0 < m') by (unfold m'; apply Z.mul_pos_pos; lia).
  pose proof (Z.sqrtrem_spec m' ltac:(lia)) as SQ. destruct (Z.sqrtrem m') as [q r]. destruct SQ as [SQ1 SQ2].
  assert (Hq : 0 <= q) by lia.
  set (l := if Zeq_bool r 0 then loc_Exact else loc_Inexact (if Z.leb r q then Lt else Gt)).
  assert (LH : forall c, 0 <= c -> square p (c * H e') = (c * c ?= 4 * m')).
  { intros c Pc. unfold square. assert (PH : 0 < H e') by (apply H_pos; unfold base; lia).
    destruct (Z.ltb_spec (c * H e') 0) as [X|X]; [exfalso; pose proof (Z.mul_nonneg_nonneg c (H e') Pc ltac:(lia)); lia|].
    assert (Px : 0 < 2 ^ (2 * e' + 2 * base - 2)) by (apply pow_pos; unfold base; lia).
    replace (c * H e' * (c * H e')) with (c * c * 2 ^ (2 * e' + 2 * base - 2)).
    2: { unfold H. replace (2 * e' + 2 * base - 2) with ((e' + base - 1) + (e' + base - 1)) by lia. rewrite Z.pow_add_r by (unfold base; lia). ring. }
    replace (p * 2 ^ (2 * base - 1074)) with (4 * m' * 2 ^ (2 * e' + 2 * base - 2)).
    2: { unfold p, m'. change 4 with (2 ^ 2). rewrite <- !Z.mul_assoc, <- !Z.pow_add_r by (unfold base; lia).
         rewrite (Z.mul_comm (2 ^ 2)). rewrite <- !Z.mul_assoc, <- !Z.pow_add_r by (unfold base; lia). f_equal. f_equal. unfold s. lia. }
    symmetry. apply Zmult_compare_compat_r. lia. }
  assert (X : located (square p) q e' l).
  { pose proof (W_H e' ltac:(unfold base; lia)) as WH.
    assert (L0 : square p (q * W e') = (2 * q * (2 * q) ?= 4 * m')) by (rewrite WH, <- LH by lia; f_equal; ring).
    assert (L1 : square p (q * W e' + H e') = ((2 * q + 1) * (2 * q + 1) ?= 4 * m')) by (rewrite WH, <- LH by lia; f_equal; ring).
    assert (L2 : square p ((q + 1) * W e') = ((2 * q + 2) * (2 * q + 2) ?= 4 * m')) by (rewrite WH, <- LH by lia; f_equal; ring).
    unfold l. destruct (Zeq_bool r 0) eqn:Zr.
    - apply Zeq_bool_eq in Zr. cbn [located]. rewrite L0. apply Z.compare_eq_iff. lia.
    - apply Zeq_bool_neq in Zr. destruct (Z.leb_spec r q); cbn [located]; rewrite ?L0, ?L1, ?L2;
        (split; [apply Z.compare_lt_iff|apply Z.compare_gt_iff]; lia). }
  assert (Dg : e' <= expo (Zdigits2 q + e')).
  { assert (Q1 : 0 < q) by nia. destruct (digits_ok q Q1) as [[A1 A2] A3]. destruct (digits_ok (Zpos m) ltac:(lia)) as [[B1 B2] B3]. fold d in B1, B2, B3.
    set (k := Zdigits2 q) in *. assert (G : d + s <= 2 * k).
    { destruct (Z.le_gt_cases (d + s) (2 * k)) as [|T]; auto. exfalso.
      assert (P1 : 2 ^ (2 * k) <= 2 ^ (d - 1 + s)) by (apply Z.pow_le_mono_r; lia). rewrite pow_split in P1 by lia.
      assert (P2 : 2 ^ (d - 1) * 2 ^ s <= m') by (unfold m'; apply Z.mul_le_mono_nonneg_r; lia).
      assert (P3 : 2 ^ (2 * k) = 2 ^ k * 2 ^ k) by (rewrite <- Z.pow_add_r by lia; f_equal; lia).
      assert (P4 : (q + 1) * (q + 1) <= 2 ^ k * 2 ^ k) by (apply Z.mul_le_mono_nonneg; lia). lia. }
    destruct Be as (_ & Be & _). rewrite expo_eq in *. pose proof (Z.div_mod (d + e + 1) 2 ltac:(lia)). pose proof (Z.mod_pos_bound (d + e + 1) 2 ltac:(lia)).
    unfold s in G. lia. }
  destruct (aux_near _ (square_mono p) false q e' l Hq ltac:(unfold base; lia) Dg X) as (N & e2 & Le & HN & Hc2 & E & Below & Above & Inf).
  match goal with |- context [binary_round_aux ?a ?b ?c ?d ?f ?g] => change (binary_round_aux a b c d f g) with (binary_round_aux fprec femax false q e' l) end.
  rewrite E. set (V := N * 2 ^ (e2 + 1074)) in *.
  assert (V0 : 0 <= V) by (unfold V; pose proof (pow_pos (e2 + 1074) ltac:(lia)); apply Z.mul_nonneg_nonneg; lia).
  pose proof QH_pos as QP.
  assert (Cm : forall a, 0 <= a -> square p (a * QH) = (a * a ?= 4 * p * unit_scale)).
  { intros a Pa. unfold square. destruct (Z.ltb_spec (a * QH) 0) as [Y|Y]; [exfalso; pose proof (Z.mul_nonneg_nonneg a QH Pa ltac:(lia)); lia|].
    assert (PQ : 0 < QH * QH) by (apply Z.mul_pos_pos; lia).
    replace (a * QH * (a * QH)) with (a * a * (QH * QH)) by ring.
    replace (p * 2 ^ (2 * base - 1074)) with (4 * p * unit_scale * (QH * QH)).
    2: { change 4 with (2 ^ 2). rewrite (Z.mul_comm (2 ^ 2)), <- !Z.mul_assoc. f_equal. }
    symmetry. apply Zmult_compare_compat_r. lia. }
  assert (NI : made false N e2 <> S754_infinity false).
  { intros I. apply Inf in I. apply I. rewrite Q_QH. replace (overflow_limit * (2 * QH)) with (2 * overflow_limit * QH) by ring.
    assert (OL : 0 < overflow_limit) by (unfold overflow_limit; pose proof (pow_pos 2044 ltac:(lia)); lia).
    rewrite Cm by lia. apply Z.compare_gt_iff.
    assert (BU : p < overflow_limit).
    { pose proof (units_bound (S754_finite false m e) p (conj Hm (conj He Hc)) ltac:(cbn [units]; f_equal; unfold p; ring)). lia. }
    assert (unit_scale < overflow_limit) by (unfold unit_scale, overflow_limit; reflexivity).
    replace (2 * overflow_limit * (2 * overflow_limit)) with (4 * (overflow_limit * overflow_limit)) by ring. rewrite <- Z.mul_assoc.
    apply Z.mul_lt_mono_pos_l; [lia|]. apply Z.mul_lt_mono_nonneg; try lia. pose proof scale_pos; lia. }
  destruct (made_finite false N e2 Le HN Hc2 NI) as (A & A' & _ & D). split; [exact A|]. exists V. rewrite Z.mul_1_l in A'. split; [exact A'|]. split; [exact V0|].
  intros g w Bg Ug Pw. pose proof (fits_units _ _ Bg Ug) as F. rewrite Z.abs_eq in F by lia.
  split; [intros L; destruct (Below w F L) as [G _]; rewrite Cm in G by lia; apply (proj1 (Z.compare_le_iff _ _)) in G; exact G|].
  split; [intros L; destruct (Above w F L) as [G _]; rewrite Cm in G by lia; apply (proj1 (Z.compare_ge_iff _ _)) in G; exact G|].
  intros Nw Eq. apply D. destruct (Z.lt_trichotomy w V) as [T|[T|T]]; [|congruence|].
  - apply (Below w F T). rewrite Cm by lia. apply Z.compare_eq_iff. exact Eq.
  - apply (Above w F T). rewrite Cm by lia. apply Z.compare_eq_iff. exact Eq.
Qed.

(** * Remainders *)
Lemma normalize_rounded z e b : -1074 <= e -> is_rounded (z * 2 ^ (e + 1074)) (binary_normalize fprec femax z e b).
Proof.
  intros He. assert (P := pow_pos (e + 1074) ltac:(lia)). unfold is_rounded. destruct z as [|k|k]; cbn [binary_normalize].
  - left. split; [reflexivity|]. exists b. reflexivity.
  - right. left. split; [apply Z.mul_pos_pos; lia|]. apply DblRound.round_ok. exact He.
  - right. right. split; [apply Z.mul_neg_pos; lia|]. change (Zneg k) with (- Zpos k).
    replace (- (- Zpos k * 2 ^ (e + 1074))) with (Zpos k * 2 ^ (e + 1074)) by ring. apply DblRound.round_ok. exact He.
Qed.
Lemma units_largest f u : binary64 f -> units f = Some u -> Z.abs u <= largest.
Proof.
  intros B U. destruct (Z.eq_dec u 0) as [->|N]; [unfold largest; pose proof (pow_pos 2045 ltac:(lia)); lia|].
  destruct (binary64_shape _ _ B U N) as (s & m & e & -> & (C & C' & _) & L & E & _). rewrite E. unfold largest.
  apply Z.mul_le_mono_nonneg; [lia|lia|apply Z.pow_nonneg; lia|apply Z.pow_le_mono_r; lia].
Qed.
Lemma fmod_exact f g u v : binary64 f -> binary64 g -> units f = Some u -> units g = Some v -> v <> 0 ->
  exists h, py_fmod f g = Ok h /\ binary64 h /\ units h = Some (Z.rem u v) /\ negative h = negative f.
Proof.
  intros Bf Bg Uf Ug Nv. destruct f as [sf|[]| |sf mf ef]; try discriminate Uf; destruct g as [sg|[]| |sg mg eg]; try discriminate Ug.
  1,3: cbn [units] in Ug; injection Ug as <-; lia.
  { exists (S754_zero sf). cbn [units] in Uf. injection Uf as <-. rewrite Z.rem_0_l by auto. repeat split. }
  pose proof (units_largest _ _ Bf Uf) as Lu. pose proof Bf as (Mf & Hf & Cf). pose proof Bg as (Mg & Hg & Cg).
  destruct (finite_units _ _ _ _ (proj1 Hf) Uf) as (Au & Nu & Su). destruct (finite_units _ _ _ _ (proj1 Hg) Ug) as (Av & _ & Sv).
  cbn [py_fmod]. set (e := Z.min ef eg). set (x := Zpos mf * 2 ^ (ef - e)). set (y := Zpos mg * 2 ^ (eg - e)).
  assert (P := pow_pos (e + 1074) ltac:(lia)).
  assert (Ex : Z.abs u = x * 2 ^ (e + 1074)).
  { rewrite Au. unfold x. rewrite <- Z.mul_assoc, <- Z.pow_add_r by lia. f_equal. f_equal. lia. }
  assert (Ey : Z.abs v = y * 2 ^ (e + 1074)).
  { rewrite Av. unfold y. rewrite <- Z.mul_assoc, <- Z.pow_add_r by lia. f_equal. f_equal. lia. }
  assert (Px : 0 < x) by (apply Z.mul_pos_pos; [lia|apply pow_pos; lia]). assert (Py : 0 < y) by (apply Z.mul_pos_pos; [lia|apply pow_pos; lia]).
  set (r := Z.rem x y). pose proof (Z.rem_bound_pos x y ltac:(lia) Py) as Rb. fold r in Rb.
  assert (Rx : r <= x) by (unfold r; rewrite Z.rem_mod_nonneg by lia; apply Z.mod_le; lia).
  assert (Er : Z.rem u v = (if sf then -1 else 1) * (r * 2 ^ (e + 1074))).
  { unfold r. rewrite <- Z.mul_rem_distr_r by lia. rewrite <- Ex, <- Ey. rewrite Z.rem_abs_r by exact Nv.
    destruct (Z.ltb_spec u 0) as [T|T]; subst sf.
    - rewrite Z.abs_neq by lia. rewrite Z.rem_opp_l by exact Nv. lia.
    - rewrite Z.abs_eq by lia. lia. }
  assert (Ec : cond_Zopp sf r * 2 ^ (e + 1074) = Z.rem u v) by (rewrite Er; destruct sf; cbn [cond_Zopp]; ring).
  pose proof (normalize_rounded (cond_Zopp sf r) e sf ltac:(lia)) as R. rewrite Ec in R.
  assert (Ab : Z.abs (Z.rem u v) = r * 2 ^ (e + 1074)).
  { assert (0 <= r * 2 ^ (e + 1074)) by (apply Z.mul_nonneg_nonneg; lia). rewrite Er. destruct sf; lia. }
  destruct (got_exact _ _ R) as [Bh Uh].
  - rewrite Ab. exists r, e. split; [|split; [lia|reflexivity]]. split; [lia|].
    destruct (Z.le_ge_cases ef eg) as [L|L].
    + assert (Ee : e = ef) by (unfold e; lia). unfold x in Rx. rewrite Ee, Z.sub_diag, Z.mul_1_r in Rx. lia.
    + assert (Ee : e = eg) by (unfold e; lia). unfold y in Rb. rewrite Ee, Z.sub_diag, Z.mul_1_r in Rb. lia.
  - rewrite Ab. apply Z.le_trans with (2 := Lu). rewrite Ex. apply Z.mul_le_mono_nonneg_r; lia.
  - eexists. split; [reflexivity|]. split; [exact Bh|]. split; [exact Uh|].
    destruct (Z.eq_dec r 0) as [Z0|Z0].
    + rewrite Z0. destruct sf; reflexivity.
    + pose proof (rounds_normalize (cond_Zopp sf r) e sf ltac:(lia)) as RN. destruct RN as (_ & Sg & _). rewrite Ec in Sg.
      assert (0 < r * 2 ^ (e + 1074)) by (apply Z.mul_pos_pos; lia). rewrite Sg by lia. cbn [negative]. rewrite Er.
      destruct sf; [apply Z.ltb_lt|apply Z.ltb_ge]; lia.
Qed.

(** * What correct rounding implies *)
Lemma rounds_exact p q f g w : 0 < q -> rounds_to p q f -> binary64 g -> units g = Some w -> w * q = p -> units f = Some w.
Proof.
  intros Hq (_ & _ & R) Bg Ug E. pose proof (units_bound _ _ Bg Ug) as L.
  assert (A : Z.abs p = Z.abs w * q) by (rewrite <- E, Z.abs_mul; f_equal; lia).
  destruct (Z.leb_spec (overflow_limit * q) (Z.abs p)) as [T|T].
  - exfalso. rewrite A in T. apply Z.mul_le_mono_pos_r in T; lia.
  - destruct R as (v & U & N). destruct (N g w Bg Ug) as [N1 _]. rewrite E, Z.sub_diag in N1. cbn [Z.abs] in N1.
    assert (Ev : v * q = w * q) by lia. apply Z.mul_reg_r in Ev; [congruence|lia].
Qed.
Lemma add_comm f g : fadd f g = fadd g f.
Proof.
  unfold fadd. destruct f as [sf|sf| |sf mf ef], g as [sg|sg| |sg mg eg]; cbn [SFadd]; try reflexivity; try (destruct sf, sg; reflexivity).
  rewrite (Z.min_comm eg ef). f_equal. apply Z.add_comm.
Qed.
Lemma mul_comm f g : fmul f g = fmul g f.
Proof.
  unfold fmul. destruct f as [sf|sf| |sf mf ef], g as [sg|sg| |sg mg eg]; cbn [SFmul]; try reflexivity; try (destruct sf, sg; reflexivity).
  rewrite (xorb_comm sf sg), (Pos.mul_comm mf mg), (Z.add_comm ef eg). reflexivity.
Qed.

(** * Only one double is correctly rounded *)
Lemma canonical_unique m e m' e' : canonical m e -> canonical m' e' -> m * 2 ^ (e + 1074) = m' * 2 ^ (e' + 1074) -> m = m' /\ e = e'.
Proof.
  assert (G : forall m e m' e', canonical m e -> canonical m' e' -> e < e' -> m * 2 ^ (e + 1074) = m' * 2 ^ (e' + 1074) -> False).
  { clear. intros m e m' e' (A1 & A2 & A3) (B1 & B2 & B3) L E. replace (e' + 1074) with (e + 1074 + (e' - e)) in E by lia.
    rewrite (pow_split (e + 1074) (e' - e)) in E by lia. assert (P := pow_pos (e + 1074) ltac:(lia)).
    assert (E' : m = m' * 2 ^ (e' - e)) by (apply (Z.mul_reg_r _ _ (2 ^ (e + 1074))); [lia|]; rewrite E; ring).
    assert (2 ^ 1 <= 2 ^ (e' - e)) by (apply Z.pow_le_mono_r; lia). assert (2 ^ 52 <= m') by lia.
    assert (2 ^ 52 * 2 ^ 1 <= m' * 2 ^ (e' - e)) by (apply Z.mul_le_mono_nonneg; lia). change (2 ^ 52 * 2 ^ 1) with (2 ^ 53) in *. lia. }
  intros A B E. destruct (Z.lt_trichotomy e e') as [L|[L|L]]; [exfalso; eauto| |exfalso; symmetry in E; eauto].
  subst e'. split; [|reflexivity]. apply Z.mul_reg_r in E; auto. destruct A as (_ & A & _). pose proof (pow_pos (e + 1074) ltac:(lia)). lia.
Qed.
Lemma same_double f g v : binary64 f -> binary64 g -> units f = Some v -> units g = Some v -> negative f = negative g -> f = g.
Proof.
  intros Bf Bg Uf Ug Sg. destruct (Z.eq_dec v 0) as [->|Nv].
  - destruct f as [sf|[]| |sf mf ef]; try discriminate Uf; destruct g as [sg|[]| |sg mg eg]; try discriminate Ug.
    + cbn [negative] in Sg. congruence.
    + destruct Bg as (_ & He & _). destruct (finite_units _ _ _ _ (proj1 He) Ug). lia.
    + destruct Bf as (_ & He & _). destruct (finite_units _ _ _ _ (proj1 He) Uf). lia.
    + destruct Bg as (_ & He & _). destruct (finite_units _ _ _ _ (proj1 He) Ug). lia.
  - destruct (binary64_shape _ _ Bf Uf Nv) as (s & m & e & -> & C & _ & E & S). destruct (binary64_shape _ _ Bg Ug Nv) as (s' & m' & e' & -> & C' & _ & E' & S').
    destruct (canonical_unique _ _ _ _ C C' ltac:(congruence)) as [M E2]. injection M as ->. congruence.
Qed.
Lemma shape0 f v : binary64 f -> units f = Some v -> exists m e, 0 <= m < 2 ^ 53 /\ -1074 <= e <= 971 /\ (2 ^ 52 <= m \/ e = -1074) /\
  Z.abs v = m * 2 ^ (e + 1074) /\ (even_last f -> Z.even m = true).
Proof.
  intros B U. destruct (Z.eq_dec v 0) as [->|N].
  - exists 0, (-1074). split; [lia|]. split; [lia|]. split; [right; reflexivity|]. split; reflexivity.
  - destruct (binary64_shape _ _ B U N) as (s & m & e & -> & (C1 & C2 & C3) & L & E & _). exists (Zpos m), e. split; [lia|]. split; [lia|]. split; [exact C3|]. split; [exact E|]. intros Ev. exact Ev.
Qed.
Lemma tie_between f g v w : binary64 f -> binary64 g -> units f = Some v -> units g = Some w -> even_last f -> even_last g ->
  Z.abs v < Z.abs w -> forall s : bool, exists h T, binary64 h /\ units h = Some ((if s then -1 else 1) * T) /\ Z.abs v < T < Z.abs w.
Proof.
  intros Bf Bg Uf Ug Ef Eg L s. destruct (shape0 _ _ Bf Uf) as (m & e & Hm & He & Hc & E & Ev). specialize (Ev Ef).
  assert (Ne : m <> 2 ^ 53 - 1) by (intros ->; discriminate Ev). assert (P := pow_pos (e + 1074) ltac:(lia)).
  assert (Nx : (m + 1) * 2 ^ (e + 1074) <= Z.abs w).
  { rewrite E in L. destruct Hc as [Hc|Hc].
    - apply fits_above; auto; [lia|]. exact (fits_units _ _ Bg Ug).
    - rewrite Hc in *. change (2 ^ (-1074 + 1074)) with 1 in *. lia. }
  assert (Nq : (m + 1) * 2 ^ (e + 1074) <> Z.abs w).
  { intros Q'. assert (Nw : w <> 0) by lia. destruct (binary64_shape _ _ Bg Ug Nw) as (s' & m' & e' & -> & C' & _ & E' & _).
    assert (C : canonical (m + 1) e) by (unfold canonical; lia).
    destruct (canonical_unique _ _ _ _ C C' ltac:(congruence)) as [M _]. cbn [even_last] in Eg. rewrite <- M in Eg. rewrite Z.even_add, Ev in Eg. discriminate Eg. }
  exists (S754_finite s (Z.to_pos (m + 1)) e), ((m + 1) * 2 ^ (e + 1074)).
  assert (Ep : Zpos (Z.to_pos (m + 1)) = m + 1) by (apply Z2Pos.id; lia).
  split; [cbn [binary64]; rewrite Ep; lia|]. split; [cbn [units]; rewrite Ep; f_equal; ring|]. rewrite E. split; [|lia].
  apply Zmult_lt_compat_r; lia.
Qed.
Lemma sign_units f v : binary64 f -> units f = Some v -> v = (if negative f then -1 else 1) * Z.abs v.
Proof.
  intros B U. destruct (Z.eq_dec v 0) as [->|N]; [destruct (negative f); reflexivity|].
  destruct (binary64_shape _ _ B U N) as (s & m & e & -> & _ & _ & _ & ->). cbn [negative]. destruct (Z.ltb_spec v 0); lia.
Qed.
Lemma rounds_unique p q f g : 0 < q -> p <> 0 -> rounds_to p q f -> rounds_to p q g -> f = g.
Proof.
  intros Hq Np (Bf & Sf & Rf) (Bg & Sg & Rg). specialize (Sf Np). specialize (Sg Np).
  destruct (overflow_limit * q <=? Z.abs p); [congruence|]. destruct Rf as (v & Uf & Mf), Rg as (w & Ug & Mg).
  destruct (Mf g w Bg Ug) as [Fa Fb]. destruct (Mg f v Bf Uf) as [Ga Gb].
  assert (Eq : Z.abs (v * q - p) = Z.abs (w * q - p)) by lia.
  destruct (Z.eq_dec v w) as [->|Nv]; [apply (same_double _ _ w); auto; congruence|]. exfalso.
  assert (Ef : even_last f) by (apply Fb; auto). assert (Eg : even_last g) by (apply Gb; auto; congruence).
  pose proof (sign_units _ _ Bf Uf) as Wf. pose proof (sign_units _ _ Bg Ug) as Wg. rewrite Sf in Wf. rewrite Sg in Wg.
  assert (B : exists h t, binary64 h /\ units h = Some t /\ (v < t < w \/ w < t < v)).
  { destruct (Z.lt_trichotomy (Z.abs v) (Z.abs w)) as [L|[L|L]].
    - destruct (tie_between f g v w Bf Bg Uf Ug Ef Eg L (p <? 0)) as (h & T & A1 & A2 & A3). exists h. eexists. split; [exact A1|]. split; [exact A2|].
      destruct (p <? 0); lia.
    - exfalso. apply Nv. rewrite Wf, Wg, L. reflexivity.
    - destruct (tie_between g f w v Bg Bf Ug Uf Eg Ef L (p <? 0)) as (h & T & A1 & A2 & A3). exists h. eexists. split; [exact A1|]. split; [exact A2|].
      destruct (p <? 0); lia. }
  destruct B as (h & t & Bh & Uh & Bt). destruct (Mf h t Bh Uh) as [X _].
  assert (Bq : v * q < t * q < w * q \/ w * q < t * q < v * q).
  { destruct Bt as [[T1 T2]|[T1 T2]]; [left|right]; (split; apply Zmult_lt_compat_r; lia). }
  clear - Bq X Eq. set (a := v * q) in *. set (b := t * q) in *. set (c := w * q) in *. clearbody a b c. lia.
Qed.

(** * Signs of zeros *)
Lemma zero_sum f g u v : binary64 f -> binary64 g -> units f = Some u -> units g = Some v ->
  (u + v = 0 -> fadd f g = S754_zero (negative f && negative g)) /\ (u - v = 0 -> fsub f g = S754_zero (negative f && negb (negative g))).
Proof.
  intros Bf Bg Uf Ug. destruct f as [sf|[]| |sf mf ef]; try discriminate Uf; destruct g as [sg|[]| |sg mg eg]; try discriminate Ug.
  - destruct sf, sg; split; reflexivity.
  - destruct Bg as (_ & He & _). destruct (finite_units _ _ _ _ (proj1 He) Ug). cbn [units] in Uf. injection Uf as <-. lia.
  - destruct Bf as (_ & He & _). destruct (finite_units _ _ _ _ (proj1 He) Uf). cbn [units] in Ug. injection Ug as <-. lia.
  - destruct Bf as (_ & Hx & _). destruct Bg as (_ & Hy & _). unfold fadd, fsub. cbn [SFadd SFsub negative]. set (ez := Z.min ef eg).
    destruct (finite_units _ _ _ _ (proj1 Hx) Uf) as (_ & Nu & Su). destruct (finite_units _ _ _ _ (proj1 Hy) Ug) as (_ & Nv & Sv).
    pose proof (align_eq mf ef ez ltac:(lia) ltac:(lia)) as A. pose proof (align_eq mg eg ez ltac:(lia) ltac:(lia)) as B.
    destruct (shl_align mf ef ez) as [mx' ex'], (shl_align mg eg ez) as [my' ey']. cbn [fst].
    destruct A as [A A'], B as [B B']. replace (Z.min ef ez) with ez in A' by lia. replace (Z.min eg ez) with ez in B' by lia. subst ex' ey'.
    assert (Eu : u = cond_Zopp sf (Zpos mx') * 2 ^ (ez + 1074)).
    { cbn [units] in Uf. injection Uf as <-. rewrite <- Z.mul_assoc, <- A. destruct sf; cbn [cond_Zopp]; ring. }
    assert (Ev : v = cond_Zopp sg (Zpos my') * 2 ^ (ez + 1074)).
    { cbn [units] in Ug. injection Ug as <-. rewrite <- Z.mul_assoc, <- B. destruct sg; cbn [cond_Zopp]; ring. }
    assert (P := pow_pos (ez + 1074) ltac:(lia)).
    split; intros E.
    + assert (Z0 : cond_Zopp sf (Zpos mx') + cond_Zopp sg (Zpos my') = 0).
      { rewrite Eu, Ev, <- Z.mul_add_distr_r in E. apply Z.mul_eq_0 in E. destruct E; lia. }
      rewrite Z0. cbn [binary_normalize]. f_equal. destruct (Z.ltb_spec u 0), (Z.ltb_spec v 0); subst sf sg; auto; lia.
    + assert (Z0 : cond_Zopp sf (Zpos mx') - cond_Zopp sg (Zpos my') = 0).
      { rewrite Eu, Ev, <- Z.mul_sub_distr_r in E. apply Z.mul_eq_0 in E. destruct E; lia. }
      rewrite Z0. cbn [binary_normalize]. f_equal. destruct (Z.ltb_spec u 0), (Z.ltb_spec v 0); subst sf sg; auto; lia.
Qed.
Lemma zero_product f g u v : binary64 f -> binary64 g -> units f = Some u -> units g = Some v ->
  (u * v = 0 -> fmul f g = S754_zero (xorb (negative f) (negative g))) /\
  (u = 0 -> v <> 0 -> fdiv f g = S754_zero (xorb (negative f) (negative g))).
Proof.
  intros Bf Bg Uf Ug. destruct f as [sf|[]| |sf mf ef]; try discriminate Uf; destruct g as [sg|[]| |sg mg eg]; try discriminate Ug.
  - split; [reflexivity|]. cbn [units] in Ug. injection Ug as <-. lia.
  - split; reflexivity.
  - split; [reflexivity|]. cbn [units] in Ug. injection Ug as <-. lia.
  - destruct Bf as (_ & Hx & _). destruct Bg as (_ & Hy & _).
    destruct (finite_units _ _ _ _ (proj1 Hx) Uf) as (_ & Nu & Su). destruct (finite_units _ _ _ _ (proj1 Hy) Ug) as (_ & Nv & Sv).
    split; intros E; [apply Z.mul_eq_0 in E; destruct E|]; lia.
Qed.
Lemma units_zero g : binary64 g -> units g = Some 0 -> exists s, g = S754_zero s.
Proof.
  intros B U. destruct g as [s|[]| |s k e]; try discriminate U; eauto. destruct B as (_ & H & _). destruct (finite_units _ _ _ _ (proj1 H) U). lia.
Qed.
Lemma fdiv_hosted m f g v : units g = Some v -> v <> 0 -> py_fdiv m f g = Ok (fdiv f g).
Proof. intros U N. destruct m, g as [s|[]| |s k e]; try discriminate U; try reflexivity. cbn [units] in U. injection U as <-. lia. Qed.

(** * Integers *)
Lemma infinite_iff z : (exists s, float_of_Z z = S754_infinity s) <-> overflow_limit <= Z.abs z * unit_scale.
Proof.
  destruct (rounds_int z) as (_ & _ & R). rewrite Z.mul_1_r, Z.abs_mul, (Z.abs_eq unit_scale) in R by (pose proof scale_pos; lia).
  destruct (Z.leb_spec overflow_limit (Z.abs z * unit_scale)) as [L|L].
  - split; eauto.
  - destruct R as (v & U & _). split; [|lia]. intros [s E]. rewrite E in U. discriminate U.
Qed.
Lemma big_tofloat_ok z : (Z.abs z * unit_scale < overflow_limit -> big_tofloat z = Ok (float_of_Z z)) /\
  (overflow_limit <= Z.abs z * unit_scale -> big_tofloat z = Err OverflowError).
Proof.
  pose proof (infinite_iff z) as I. unfold big_tofloat. split; intros L.
  - destruct (float_of_Z z); try reflexivity. assert (overflow_limit <= Z.abs z * unit_scale) by (apply I; eauto). lia.
  - apply I in L. destruct L as [s ->]. reflexivity.
Qed.
Lemma as_double_ok m a x : valid m a -> int_val a = Some x ->
  (Z.abs x * unit_scale < overflow_limit -> send0 m a "asDouble" = Ok (VDbl (float_of_Z x))) /\
  (overflow_limit <= Z.abs x * unit_scale -> send0 m a "asDouble" = Err OverflowError).
Proof.
  intros V I. destruct (big_tofloat_ok x) as [A B]. destruct a as [| | |z|z|f| | |]; try discriminate I; injection I as ->.
  - change (send0 m (VInt x) "asDouble") with (f <- int_tofloat m x ;; Ok (VDbl f)). destruct m; cbn [int_tofloat].
    + split; [reflexivity|]. intros L. exfalso. cbn [valid] in V.
      assert (W : 2 ^ 63 * unit_scale < overflow_limit) by reflexivity.
      assert (Z.abs x * unit_scale <= 2 ^ 63 * unit_scale) by (apply Z.mul_le_mono_nonneg_r; [pose proof scale_pos; lia|lia]). lia.
    + split; intros L; [rewrite A by exact L|rewrite B by exact L]; reflexivity.
  - change (send0 m (VBig x) "asDouble") with (f <- big_tofloat x ;; Ok (VDbl f)).
    split; intros L; [rewrite A by exact L|rewrite B by exact L]; reflexivity.
Qed.
Lemma truediv_ok x y : y <> 0 ->
  (Z.abs x * unit_scale < overflow_limit * Z.abs y -> exists h, big_truediv x y = Ok h /\ rounds_to (Z.sgn y * x * unit_scale) (Z.abs y) h) /\
  (overflow_limit * Z.abs y <= Z.abs x * unit_scale -> big_truediv x y = Err OverflowError).
Proof.
  intros Ny. destruct (rounds_truediv x y Ny) as (f & R & E). rewrite E. pose proof scale_pos as S.
  assert (A : Z.abs (Z.sgn y * x * unit_scale) = Z.abs x * unit_scale).
  { rewrite !Z.abs_mul, (Z.abs_eq unit_scale) by lia. replace (Z.abs (Z.sgn y)) with 1 by lia. ring. }
  pose proof R as (_ & _ & R'). rewrite A in R'. destruct (Z.leb_spec (overflow_limit * Z.abs y) (Z.abs x * unit_scale)) as [L|L].
  - split; [lia|]. intros _. rewrite R'. reflexivity.
  - split; [|lia]. intros _. exists f. split; [|exact R]. destruct R' as (v & U & _). destruct f; try reflexivity. discriminate U.
Qed.
Lemma fdiv_ints m x y : Z.abs x <= 2 ^ 53 -> Z.abs y <= 2 ^ 53 -> y <> 0 ->
  exists h, send1 m (VInt x) "//" (VInt y) = Ok (VDbl h) /\ rounds_to (Z.sgn y * x * unit_scale) (Z.abs y) h.
Proof.
  intros Hx Hy Ny. pose proof scale_pos as S. change (send1 m (VInt x) "//" (VInt y)) with (rf <- int_tofloat m y ;; lf <- int_tofloat m x ;; q <- py_fdiv m lf rf ;; Ok (VDbl q)).
  rewrite !tofloat_ok by lia. cbn [bind]. destruct (int_exact x ltac:(lia)) as [Bx Ux]. destruct (int_exact y ltac:(lia)) as [By Uy].
  assert (Nv : y * unit_scale <> 0) by (apply Z.neq_mul_0; lia). rewrite (fdiv_hosted m _ _ _ Uy Nv). cbn [bind].
  eexists. split; [reflexivity|]. pose proof (rounds_div _ _ _ _ Bx By Ux Uy Nv) as (R1 & R2 & R3).
  assert (Ex : Z.sgn (y * unit_scale) * (x * unit_scale) * unit_scale = Z.sgn y * x * unit_scale * unit_scale).
  { rewrite Z.sgn_mul, (Z.sgn_pos unit_scale) by exact S. ring. }
  assert (Ey : Z.abs (y * unit_scale) = Z.abs y * unit_scale) by (rewrite Z.abs_mul, (Z.abs_eq unit_scale) by lia; reflexivity).
  rewrite Ex, Ey in *. set (p := Z.sgn y * x * unit_scale) in *. set (q := Z.abs y) in *.
  assert (Ab : Z.abs (p * unit_scale) = Z.abs p * unit_scale) by (rewrite Z.abs_mul, (Z.abs_eq unit_scale) by lia; reflexivity).
  assert (Lt : (p * unit_scale <? 0) = (p <? 0)).
  { destruct (Z.ltb_spec p 0), (Z.ltb_spec (p * unit_scale) 0); auto; exfalso.
    - pose proof (Z.mul_neg_pos p unit_scale ltac:(lia) S). lia.
    - pose proof (Z.mul_nonneg_nonneg p unit_scale ltac:(lia) ltac:(lia)). lia. }
  assert (Le : (overflow_limit * (q * unit_scale) <=? Z.abs p * unit_scale) = (overflow_limit * q <=? Z.abs p)).
  { rewrite Z.mul_assoc. destruct (Z.leb_spec (overflow_limit * q) (Z.abs p)) as [L|L]; [apply Z.leb_le; apply Z.mul_le_mono_nonneg_r; lia|].
    apply Z.leb_gt. apply Zmult_lt_compat_r; lia. }
  rewrite Ab, Le, Lt in *. split; [exact R1|]. split.
  - intros Np. apply R2. apply Z.neq_mul_0. lia.
  - destruct (overflow_limit * q <=? Z.abs p); [exact R3|]. destruct R3 as (v & U & N). exists v. split; [exact U|]. intros g w Bg Ug.
    destruct (N g w Bg Ug) as [N1 N2].
    assert (Sc : forall z, Z.abs (z * (q * unit_scale) - p * unit_scale) = Z.abs (z * q - p) * unit_scale).
    { intros z. rewrite <- (Z.abs_eq unit_scale) at 3 by lia. rewrite <- Z.abs_mul. f_equal. ring. }
    rewrite !Sc in *. split; [apply Z.mul_le_mono_pos_r in N1; auto|]. intros Nw Eq. apply N2; auto. rewrite Eq. reflexivity.
Qed.

(** * Roots of integers *)
Lemma whole_float h v t : binary64 h -> units h = Some v -> 0 <= v -> cut_off v t ->
  binary64 (float_of_Z t) /\ units (float_of_Z t) = Some (t * unit_scale).
Proof.
  intros B U Pv C. pose proof scale_pos as S. destruct (Z.eq_dec v (t * unit_scale)) as [E|N].
  - split; [exact (proj1 (rounds_int t))|]. rewrite <- E. apply (rounds_exact (t * unit_scale) 1 _ h v); [lia|exact (rounds_int t)|exact B|exact U|lia].
  - apply int_exact. destruct (Z.eq_dec v 0) as [->|Nv].
    { exfalso. apply N. pose proof (cut_unique 0 t 0 C (cut_whole 0)). subst t. reflexivity. }
    destruct (binary64_shape _ _ B U Nv) as (s & m & e & -> & Cn & _ & E & _). rewrite Z.abs_eq in E by exact Pv.
    destruct (Z.le_gt_cases (2 ^ 52 * unit_scale) v) as [L|L].
    + exfalso. rewrite E in L. destruct (whole_above _ _ Cn L) as [_ W]. apply N. rewrite E, W in *.
      rewrite (cut_unique _ t (Zpos m * 2 ^ e) C (cut_whole _)). reflexivity.
    + destruct C as [C _]. specialize (C Pv).
      assert (t < 2 ^ 52) by (apply (Z.mul_lt_mono_pos_r unit_scale); lia).
      assert (0 < t + 1) by (apply (Z.mul_lt_mono_pos_r unit_scale); lia). lia.
Qed.
Lemma sqrt_int m z g : valid m (VInt z) -> 0 < z -> send0 m (VInt z) "asDouble" = Ok (VDbl g) ->
  exists u h v, units g = Some u /\ rounds_to_root u h /\ units h = Some v /\
    (forall t, v = t * unit_scale -> send0 m (VInt z) "sqrt" = Ok (VInt t)) /\
    ((forall t, v <> t * unit_scale) -> send0 m (VInt z) "sqrt" = Ok (VDbl h)).
Proof.
  intros V Pz E. pose proof scale_pos as S. destruct (as_double_ok m (VInt z) z V eq_refl) as [A1 A2].
  destruct (Z.le_gt_cases overflow_limit (Z.abs z * unit_scale)) as [L|L]; [rewrite (A2 L) in E; discriminate E|].
  assert (Eg : g = float_of_Z z) by (specialize (A1 L); congruence).
  assert (Ef : int_tofloat m z = Ok g) by (rewrite Eg; destruct m; [reflexivity|exact (proj1 (big_tofloat_ok z) L)]).
  pose proof (rounds_int z) as (Bg & Sg & R). rewrite <- Eg in *. rewrite Z.mul_1_r, Z.abs_mul, (Z.abs_eq unit_scale) in R by lia.
  destruct (Z.leb_spec overflow_limit (Z.abs z * unit_scale)); [lia|]. destruct R as (u & U & N).
  assert (P1 : unit_scale <= z * unit_scale) by (rewrite <- (Z.mul_1_l unit_scale) at 1; apply Z.mul_le_mono_nonneg_r; lia).
  destruct one_ok as [B1 U1]. destruct (N _ _ B1 U1) as [N1 _]. destruct (N (S754_zero false) 0 I eq_refl) as [N0 _].
  assert (Pu : 0 < u) by lia. assert (Hu : u <= 2 * (z * unit_scale)) by lia.
  destruct (binary64_shape _ _ Bg U ltac:(lia)) as (s & k & e & Ek & _ & _ & Eu & Es).
  assert (s = false) by (rewrite Es; apply Z.ltb_ge; lia). clear Es. subst s. rewrite Z.abs_eq in Eu by lia.
  assert (R : rounds_to_root u (fsqrt g)) by (rewrite Eu, Ek; apply rounds_sqrt; rewrite <- Ek; exact Bg).
  set (h := fsqrt g) in *. pose proof R as (Bh & v & Uh & Pv & Nh).
  exists u, h, v. split; [exact U|]. split; [exact R|]. split; [exact Uh|].
  destruct (trunc_ok h v Bh Uh) as (t & T & C). destruct (whole_float h v t Bh Uh Pv C) as [Bt Ut].
  assert (Et : py_int_of_float m h = Ok t).
  { unfold py_int_of_float. rewrite T. destruct m; [|reflexivity].
    assert (Bv : v <= 2 ^ 33 * unit_scale).
    { destruct (int_exact (2 ^ 33) ltac:(lia)) as [Bw Uw]. destruct (Z.le_gt_cases v (2 ^ 33 * unit_scale)) as [|X]; auto. exfalso.
      destruct (Nh _ _ Bw Uw ltac:(lia)) as [Nw _]. specialize (Nw X). cbn [valid] in V.
      assert (Q1 : 4 * u * unit_scale <= 2 ^ 66 * unit_scale * unit_scale).
      { apply Z.mul_le_mono_nonneg_r; [lia|]. assert (z * unit_scale <= 2 ^ 63 * unit_scale) by (apply Z.mul_le_mono_nonneg_r; lia). lia. }
      assert (Q2 : 2 ^ 34 * unit_scale * (2 ^ 34 * unit_scale) < (2 ^ 33 * unit_scale + v) * (2 ^ 33 * unit_scale + v)) by (apply Z.square_lt_mono_nonneg; lia).
      replace (2 ^ 34 * unit_scale * (2 ^ 34 * unit_scale)) with (2 ^ 68 * (unit_scale * unit_scale)) in Q2 by ring.
      rewrite <- Z.mul_assoc in Q1. assert (0 < unit_scale * unit_scale) by (apply Z.mul_pos_pos; lia). lia. }
    destruct C as [C _]. specialize (C Pv).
    assert (t <= 2 ^ 33) by (apply (Z.mul_le_mono_pos_r _ _ unit_scale); lia).
    assert (0 < t + 1) by (apply (Z.mul_lt_mono_pos_r unit_scale); lia).
    replace (fits_word t) with true; [reflexivity|]. symmetry. unfold fits_word. apply andb_true_intro. split; apply Z.leb_le; unfold word_min, word_max; lia. }
  assert (Etf : int_tofloat m t = Ok (float_of_Z t)).
  { destruct m; [reflexivity|]. cbn [int_tofloat]. unfold big_tofloat. destruct (float_of_Z t); try reflexivity. discriminate Ut. }
  assert (Es : send0 m (VInt z) "sqrt" = if feq h (float_of_Z t) then Ok (VInt t) else Ok (VDbl h)).
  { change (send0 m (VInt z) "sqrt") with (p_sqrt m (VInt z)). unfold p_sqrt. destruct (Z.ltb_spec z 0); [lia|]. rewrite Ef. cbn [bind].
    fold h. rewrite Et. cbn [bind]. rewrite Etf. reflexivity. }
  rewrite Es, (feq_units _ _ _ _ Bh Bt Uh Ut). split.
  - intros t' E'. assert (t = t') by (apply (cut_unique v); [exact C|rewrite E'; apply cut_whole]). subst t'. rewrite E', Z.eqb_refl. reflexivity.
  - intros Nt. destruct (Z.eqb_spec v (t * unit_scale)) as [X|X]; [exfalso; exact (Nt _ X)|reflexivity].
Qed.
Lemma root_unique p f g : rounds_to_root p f -> rounds_to_root p g -> units f = units g.
Proof.
  assert (W : forall f g v w, binary64 f -> binary64 g -> units f = Some v -> units g = Some w -> 0 <= v -> v < w ->
    rounds_to_root p f -> rounds_to_root p g -> False).
  { clear f g. intros f g v w Bf Bg Uf Ug Pv L (_ & v' & Uf' & _ & Nf) (_ & w' & Ug' & _ & Ng).
    assert (v' = v) by congruence. assert (w' = w) by congruence. subst v' w'.
    destruct (Nf g w Bg Ug ltac:(lia)) as (_ & F2 & F3). destruct (Ng f v Bf Uf Pv) as (G1 & _ & G3).
    specialize (F2 L). specialize (G1 L). assert (E : (v + w) * (v + w) = 4 * p * unit_scale) by (rewrite (Z.add_comm w v) in F2; lia).
    assert (Ef : even_last f) by (apply F3; [lia|rewrite (Z.add_comm w v); exact E]). assert (Eg : even_last g) by (apply G3; [lia|exact E]).
    destruct (tie_between f g v w Bf Bg Uf Ug Ef Eg ltac:(lia) false) as (h & T & Bh & Uh & Bt). rewrite Z.mul_1_l in Uh.
    destruct (Nf h T Bh Uh ltac:(lia)) as (_ & X & _). specialize (X ltac:(lia)). rewrite <- E in X.
    assert ((T + v) * (T + v) < (v + w) * (v + w)) by (apply Z.square_lt_mono_nonneg; lia). lia. }
  intros Rf Rg. pose proof Rf as (Bf & v & Uf & Pv & _). pose proof Rg as (Bg & w & Ug & Pw & _).
  destruct (Z.lt_trichotomy v w) as [L|[L|L]]; [exfalso; apply (W f g v w); auto|congruence|exfalso; apply (W g f w v); auto].
Qed.

(** * Rounding keeps the order *)
Lemma rounds_monotone p p' q f g : 0 < q -> p <= p' -> rounds_to p q f -> rounds_to p' q g ->
  below (exactly f) (exactly g) \/ same (exactly f) (exactly g).
Proof.
  intros Hq Le Rf Rg. destruct (Z.eq_dec p p') as [->|Ne].
  { destruct (Z.eq_dec p' 0) as [->|N0].
    - destruct (units_zero f) as [s ->]; [exact (proj1 Rf)|exact (rounds_exact 0 q f (S754_zero false) 0 Hq Rf I eq_refl eq_refl)|].
      destruct (units_zero g) as [t ->]; [exact (proj1 Rg)|exact (rounds_exact 0 q g (S754_zero false) 0 Hq Rg I eq_refl eq_refl)|].
      right. split; [reflexivity|discriminate].
    - rewrite (rounds_unique _ _ _ _ Hq N0 Rf Rg). right. split; [reflexivity|]. destruct Rg as (_ & _ & R).
      destruct (overflow_limit * q <=? Z.abs p'); [rewrite R; destruct (p' <? 0); discriminate|].
      destruct R as (v & U & _). rewrite (units_exactly _ _ U). discriminate. }
  destruct Rf as (Bf & Sf & Rf), Rg as (Bg & Sg & Rg).
  destruct (Z.leb_spec (overflow_limit * q) (Z.abs p)) as [L|L]; destruct (Z.leb_spec (overflow_limit * q) (Z.abs p')) as [L'|L'].
  - subst f g. destruct (Z.ltb_spec p 0), (Z.ltb_spec p' 0); try (left; exact I); try (right; split; [reflexivity|discriminate]); lia.
  - destruct Rg as (w & Ug & _). subst f. rewrite (units_exactly _ _ Ug). destruct (Z.ltb_spec p 0); [left; exact I|lia].
  - destruct Rf as (v & Uf & _). subst g. rewrite (units_exactly _ _ Uf). destruct (Z.ltb_spec p' 0); [lia|left; exact I].
  - destruct Rf as (v & Uf & Nf), Rg as (w & Ug & Ng). rewrite (units_exactly _ _ Uf), (units_exactly _ _ Ug).
    destruct (Nf g w Bg Ug) as [Nf1 _]. destruct (Ng f v Bf Uf) as [Ng1 _].
    destruct (Z.lt_trichotomy v w) as [X|[X|X]]; [left; exact X|right; split; [congruence|discriminate]|exfalso].
    pose proof (Zmult_lt_compat_r _ _ _ Hq X) as Y. clear - Y Nf1 Ng1 Le Ne. set (a := v * q) in *. set (b := w * q) in *. clearbody a b. lia.
Qed.
Lemma quotient_words m x y f g : send0 m (VInt x) "asDouble" = Ok (VDbl f) -> send0 m (VInt y) "asDouble" = Ok (VDbl g) ->
  send1 m (VInt x) "//" (VInt y) = send1 m (VDbl f) "//" (VDbl g).
Proof.
  intros Ex Ey. change (bind (int_tofloat m x) (fun f => Ok (VDbl f)) = Ok (VDbl f)) in Ex. change (bind (int_tofloat m y) (fun f => Ok (VDbl f)) = Ok (VDbl g)) in Ey.
  change (send1 m (VInt x) "//" (VInt y)) with (rf <- int_tofloat m y ;; lf <- int_tofloat m x ;; q <- py_fdiv m lf rf ;; Ok (VDbl q)).
  change (send1 m (VDbl f) "//" (VDbl g)) with (q <- py_fdiv m f g ;; Ok (VDbl q)).
  destruct (int_tofloat m x); [|discriminate Ex]. destruct (int_tofloat m y); [|discriminate Ey]. cbn [bind] in *. congruence.
Qed.
