(** The arithmetic of doubles rounds correctly. *)
From Coq Require Import ZArith Bool String List Lia Floats.SpecFloat.
From Verif Require Import Base NumModel NumSpec DblSpec DblProofs DblRound DblArith FltSpec.
Import ListNotations.
Open Scope Z_scope.

(** All numbers are multiples of 2^-[base], also half of the last place of any product. *)
Definition base : Z := 2200.
Definition H (e : Z) : Z := 2 ^ (e + base - 1).
Definition W (e : Z) : Z := 2 ^ (e + base).
Definition Q : Z := 2 ^ (base - 1074).
Definition QH : Z := 2 ^ (base - 1075).
Lemma W_H e : - base < e -> W e = 2 * H e.
Proof. unfold W, H, base. intros L. rewrite <- Z.pow_succ_r by lia. f_equal. lia. Qed.
Lemma H_W e : - base < e -> H (e + 1) = W e.
Proof. intros L. unfold W, H. f_equal. lia. Qed.
Lemma H_pos e : - base < e -> 0 < H e.
Proof. intros L. unfold H, base in *. apply Z.pow_pos_nonneg; lia. Qed.
Lemma Q_QH : Q = 2 * QH.
Proof. unfold Q, QH. rewrite <- Z.pow_succ_r by (unfold base; lia). f_equal. Qed.
Lemma QH_pos : 0 < QH.
Proof. unfold QH, base. apply Z.pow_pos_nonneg; lia. Qed.
Lemma W_units e : -1074 <= e -> W e = 2 ^ (e + 1074) * Q.
Proof. intros L. unfold W, Q, base. rewrite <- Z.pow_add_r by lia. f_equal. lia. Qed.
Lemma H_units e : -1074 <= e -> H e = 2 ^ (e + 1074) * QH.
Proof. intros L. unfold H, QH, base. rewrite <- Z.pow_add_r by lia. f_equal. lia. Qed.
Lemma H_mono a b : - base < a -> a <= b -> H a <= H b.
Proof. intros L L'. unfold H, base in *. apply Z.pow_le_mono_r; lia. Qed.

Section Cut.
(** An exact result is known by how numbers compare to it. *)
Variable cmp : Z -> comparison.
Hypothesis mono : forall a b, a < b -> cmp b <> Gt -> cmp a = Lt.
Lemma mono_up a b : a < b -> cmp a <> Lt -> cmp b = Gt.
Proof. intros L N. destruct (cmp b) eqn:E; auto; exfalso; apply N; apply (mono a b L); congruence. Qed.
Lemma lt_le a b : a <= b -> cmp b = Lt -> cmp a = Lt.
Proof. intros L N. destruct (Z.eq_dec a b) as [->|D]; auto. apply (mono a b); [lia|congruence]. Qed.
Lemma gt_le a b : a <= b -> cmp a = Gt -> cmp b = Gt.
Proof. intros L N. destruct (Z.eq_dec a b) as [->|D]; auto. apply (mono_up a b); [lia|congruence]. Qed.

Definition located (m e : Z) (l : location) : Prop :=
  match l with
  | loc_Exact => cmp (m * W e) = Eq
  | loc_Inexact Lt => cmp (m * W e) = Lt /\ cmp (m * W e + H e) = Gt
  | loc_Inexact Eq => cmp (m * W e + H e) = Eq
  | loc_Inexact Gt => cmp (m * W e + H e) = Lt /\ cmp ((m + 1) * W e) = Gt
  end.
Lemma located_between m e l : - base < e -> located m e l ->
  (l <> loc_Exact -> cmp (m * W e) = Lt /\ cmp ((m + 1) * W e) = Gt) /\ cmp (m * W e) <> Gt.
Proof.
  intros L X. pose proof (W_H e L) as E. pose proof (H_pos e L) as P.
  destruct l as [|[]]; cbn [located] in X.
  - split; [congruence|congruence].
  - assert (cmp (m * W e) = Lt) by (apply (mono _ (m * W e + H e)); [lia|congruence]).
    split; [|congruence]. intros _. split; [auto|]. apply (mono_up (m * W e + H e)); [lia|congruence].
  - destruct X as [X Y]. split; [|congruence]. intros _. split; [auto|]. apply (mono_up (m * W e + H e)); [lia|congruence].
  - destruct X as [X Y]. assert (cmp (m * W e) = Lt) by (apply (mono _ (m * W e + H e)); [lia|congruence]).
    split; [|congruence]. auto.
Qed.
Definition located_rec (y : shr_record) (e : Z) : Prop := 0 <= shr_m y /\ located (shr_m y) e (loc_of_shr_record y).
Lemma located_shr_1 y e : - base < e -> located_rec y e -> located_rec (shr_1 y) (e + 1).
Proof.
  intros L [N X]. destruct (located_between _ _ _ L X) as [B B']. pose proof (W_H e L) as E. pose proof (H_pos e L) as P.
  assert (E' : W (e + 1) = 2 * W e) by (rewrite W_H, H_W by lia; reflexivity). pose proof (H_W e L) as EH.
  destruct y as [m r s]. cbn [shr_m] in *.
  assert (A : forall p, m = 2 * p -> located_rec {| shr_m := p; shr_r := false; shr_s := r || s |} (e + 1)).
  { intros p ->. split; [cbn; lia|]. cbn [shr_m loc_of_shr_record]. destruct r, s; cbn [orb located loc_of_shr_record] in *; rewrite E', ?EH.
    all: try (replace (p * (2 * W e)) with (2 * p * W e) by lia; replace (2 * p * W e + W e) with ((2 * p + 1) * W e) by lia; apply B; discriminate).
    replace (p * (2 * W e)) with (2 * p * W e) by lia. exact X. }
  assert (A' : forall p, 0 <= p -> m = 2 * p + 1 -> located_rec {| shr_m := p; shr_r := true; shr_s := r || s |} (e + 1)).
  { intros p Hp ->. split; [cbn; lia|]. cbn [shr_m loc_of_shr_record]. destruct r, s; cbn [orb located loc_of_shr_record] in *; rewrite E', ?EH.
    all: try (replace (p * (2 * W e) + W e) with ((2 * p + 1) * W e) by lia; replace ((p + 1) * (2 * W e)) with ((2 * p + 1 + 1) * W e) by lia; apply B; discriminate).
    replace (p * (2 * W e) + W e) with ((2 * p + 1) * W e) by lia. exact X. }
  destruct m as [|[p|p|]|p]; try lia; cbn [shr_1].
  - apply (A 0). reflexivity.
  - apply (A' (Zpos p)); lia.
  - apply (A (Zpos p)). lia.
  - apply (A' 0); lia.
Qed.
Lemma located_iter n y e : - base < e -> located_rec y e -> located_rec (Nat.iter n shr_1 y) (e + Z.of_nat n).
Proof.
  intros L X. induction n as [|n IH].
  - cbn [Nat.iter nat_rect]. rewrite Z.add_0_r. exact X.
  - change (Nat.iter (S n) shr_1 y) with (shr_1 (Nat.iter n shr_1 y)).
    replace (e + Z.of_nat (S n)) with (e + Z.of_nat n + 1) by lia. apply located_shr_1; [lia|exact IH].
Qed.

(** The mantissa after shifting to the exponent of the result. *)
Lemma shifted mx ex lx : 0 <= mx -> - base < ex -> ex <= expo (Zdigits2 mx + ex) -> located mx ex lx ->
  exists y e, shr_fexp fprec femax mx ex lx = (y, e) /\ located_rec y e /\ -1074 <= e /\ shr_m y < 2 ^ 53 /\
    (2 ^ 52 <= shr_m y \/ e = -1074).
Proof.
  intros Hm Lb He X. unfold shr_fexp. change (fexp fprec femax (Zdigits2 mx + ex)) with (expo (Zdigits2 mx + ex)).
  set (e' := expo (Zdigits2 mx + ex)) in *.
  assert (X0 : located_rec (shr_record_of_loc mx lx) ex) by (split; destruct lx as [|[]]; cbn; auto).
  set (y := Nat.iter (Z.to_nat (e' - ex)) shr_1 (shr_record_of_loc mx lx)).
  assert (Es : shr (shr_record_of_loc mx lx) ex (e' - ex) = (y, e')).
  { unfold shr, y. destruct (e' - ex) as [|p|p] eqn:D; try lia.
    - cbn. f_equal. lia.
    - rewrite iter_pos_nat. rewrite Z2Nat.inj_pos. f_equal. lia. }
  exists y, e'. split; [exact Es|].
  assert (XY : located_rec y e').
  { pose proof (located_iter (Z.to_nat (e' - ex)) _ _ Lb X0) as G. fold y in G. replace (ex + Z.of_nat (Z.to_nat (e' - ex))) with e' in G by lia. exact G. }
  split; [exact XY|]. assert (Ee : e' = Z.max (Zdigits2 mx + ex - 53) (-1074)) by (unfold e'; apply expo_eq).
  split; [lia|].
  assert (Ey : shr_m y = mx / 2 ^ (e' - ex)).
  { assert (M0 : shr_m (shr_record_of_loc mx lx) = mx) by (destruct lx as [|[]]; reflexivity).
    destruct (iter_shr (Z.to_nat (e' - ex)) (shr_record_of_loc mx lx)) as [G _]; [lia|].
    fold y in G. rewrite G, M0. f_equal. f_equal. lia. }
  assert (PP : 0 < 2 ^ (e' - ex)) by (apply pow_pos; lia).
  destruct (Z.eq_dec mx 0) as [->|Nz].
  - rewrite Ey, Z.div_0_l by lia. split; [lia|]. right. change (Zdigits2 0) with 0 in Ee. lia.
  - destruct (digits_ok mx ltac:(lia)) as [[D1 D2] D3]. set (d := Zdigits2 mx) in *.
    split.
    + rewrite Ey. apply Z.div_lt_upper_bound; [lia|]. rewrite <- Z.pow_add_r by lia.
      apply Z.lt_le_trans with (2 ^ d); [exact D2|]. apply Z.pow_le_mono_r; lia.
    + destruct (Z.eq_dec e' (-1074)) as [E1|E1]; [right; exact E1|left].
      rewrite Ey. apply Z.div_le_lower_bound; [lia|]. rewrite <- Z.pow_add_r by lia.
      replace (e' - ex + 52) with (d - 1) by lia. exact D1.
Qed.

(** The nearest multiple of the last place. *)
Lemma rne_near m e l : - base < e -> 0 <= m -> located m e l ->
  let N := round_nearest_even m l in
  (N = m \/ N = m + 1) /\ cmp (N * W e - H e) <> Gt /\ cmp (N * W e + H e) <> Lt /\
  (cmp (N * W e - H e) = Eq \/ cmp (N * W e + H e) = Eq -> Z.even N = true).
Proof.
  intros L Hm X N. pose proof (W_H e L) as E. pose proof (H_pos e L) as P. destruct (located_between _ _ _ L X) as [B B'].
  assert (T : forall a, a < m * W e -> cmp a = Lt) by (intros a La; apply (mono a (m * W e)); auto).
  destruct l as [|[]]; cbn [located round_nearest_even] in *.
  - subst N. split; [auto|]. rewrite (T (m * W e - H e)) by lia. rewrite (mono_up (m * W e) (m * W e + H e)) by (lia || congruence).
    split; [discriminate|]. split; [discriminate|]. intros [G|G]; discriminate.
  - subst N. destruct (Z.even m) eqn:Ev.
    + split; [auto|]. rewrite (T (m * W e - H e)) by lia. rewrite X. split; [discriminate|]. split; [discriminate|]. auto.
    + split; [auto|]. replace ((m + 1) * W e - H e) with (m * W e + H e) by lia. rewrite X.
      rewrite (mono_up (m * W e + H e) ((m + 1) * W e + H e)) by (lia || congruence).
      split; [discriminate|]. split; [discriminate|]. intros _. rewrite Z.add_1_r, Z.even_succ, <- Z.negb_even, Ev. reflexivity.
  - subst N. destruct X as [X Y]. split; [auto|]. rewrite (T (m * W e - H e)) by lia. rewrite Y.
    split; [discriminate|]. split; [discriminate|]. intros [G|G]; discriminate.
  - subst N. destruct X as [X Y]. split; [auto|]. replace ((m + 1) * W e - H e) with (m * W e + H e) by lia. rewrite X.
    rewrite (mono_up ((m + 1) * W e) ((m + 1) * W e + H e)) by (lia || congruence).
    split; [discriminate|]. split; [discriminate|]. intros [G|G]; discriminate.
Qed.

Definition made (s : bool) (N e : Z) : spec_float :=
  if N =? 0 then S754_zero s
  else if N =? 2 ^ 53 then (if e + 1 <=? 971 then S754_finite s (2 ^ 52) (e + 1) else S754_infinity s)
  else if e <=? 971 then S754_finite s (Z.to_pos N) e else S754_infinity s.
Lemma second s N e : 0 <= N <= 2 ^ 53 -> -1074 <= e ->
  (let '(y, e'') := shr_fexp fprec femax N e loc_Exact in
   match shr_m y with
   | Z0 => S754_zero s
   | Zpos m => if Zle_bool e'' (femax - fprec) then S754_finite s m e'' else S754_infinity s
   | _ => S754_nan
   end) = made s N e.
Proof.
  intros HN He. unfold shr_fexp, made. change (fexp fprec femax (Zdigits2 N + e)) with (expo (Zdigits2 N + e)). rewrite expo_eq.
  change (femax - fprec) with 971.
  destruct (Z.eqb_spec N 0) as [->|N0].
  - change (Zdigits2 0) with 0. unfold shr. destruct (Z.max (0 + e - 53) (-1074) - e) eqn:D; try lia; reflexivity.
  - destruct (Z.eqb_spec N (2 ^ 53)) as [->|N1].
    + change (Zdigits2 (2 ^ 53)) with 54. replace (Z.max (54 + e - 53) (-1074) - e) with 1 by lia.
      change (shr (shr_record_of_loc (2 ^ 53) loc_Exact) e 1) with (shr_1 (shr_record_of_loc (2 ^ 53) loc_Exact), e + 1).
      change (shr_m (shr_1 (shr_record_of_loc (2 ^ 53) loc_Exact))) with (Zpos (2 ^ 52)). reflexivity.
    + destruct (digits_ok N ltac:(lia)) as [[D1 D2] D3]. assert (Zdigits2 N <= 53).
      { destruct (Z.le_gt_cases (Zdigits2 N) 53); auto. exfalso.
        assert (2 ^ 53 <= 2 ^ (Zdigits2 N - 1)) by (apply Z.pow_le_mono_r; lia). lia. }
      unfold shr. destruct (Z.max (Zdigits2 N + e - 53) (-1074) - e) eqn:D; try lia;
      (destruct N as [|n|n]; try lia; reflexivity).
Qed.

(** The rounded significand [N] with exponent [e]: nearest, and infinite exactly from the limit on. *)
Lemma aux_near s mx ex lx : 0 <= mx -> - base < ex -> ex <= expo (Zdigits2 mx + ex) -> located mx ex lx ->
  exists N e, -1074 <= e /\ 0 <= N <= 2 ^ 53 /\ (2 ^ 52 <= N \/ e = -1074) /\
    binary_round_aux fprec femax s mx ex lx = made s N e /\
    let V := N * 2 ^ (e + 1074) in
    (forall P, fits P -> P < V -> cmp ((P + V) * QH) <> Gt /\ (cmp ((P + V) * QH) = Eq -> Z.even N = true)) /\
    (forall P, fits P -> V < P -> cmp ((P + V) * QH) <> Lt /\ (cmp ((P + V) * QH) = Eq -> Z.even N = true)) /\
    (made s N e = S754_infinity s <-> cmp (overflow_limit * Q) <> Gt).
Proof.
  intros Hm Lb He X. destruct (shifted mx ex lx Hm Lb He X) as (y & e & Es & [Y0 Y] & Le & Yu & Yl).
  assert (Le' : - base < e) by (unfold base; lia).
  destruct (rne_near _ _ _ Le' Y0 Y) as (Nm & N1 & N2 & N3). destruct (located_between _ _ _ Le' Y) as [_ B'].
  set (N := round_nearest_even (shr_m y) (loc_of_shr_record y)) in *.
  pose proof (W_H e Le') as EW. pose proof (H_pos e Le') as HP. pose proof (H_units e Le) as EH.
  pose proof QH_pos as QP. pose proof (pow_pos (e + 1074) ltac:(lia)) as UP.
  exists N, e. split; [exact Le|]. split; [lia|]. split; [lia|]. split.
  { unfold binary_round_aux. rewrite Es. fold N. apply second; lia. }
  set (U := 2 ^ (e + 1074)) in *. intros V. unfold V.
  assert (One : e = -1074 -> U = 1) by (intros ->; reflexivity).
  split; [|split].
  - intros P FP LP.
    assert (C : P <= (N - 1) * U \/ cmp (N * W e) <> Gt).
    { destruct (Z.eq_dec e (-1074)) as [Q1|Q1]; [left; rewrite (One Q1) in *; lia|].
      destruct (Z.le_gt_cases (2 ^ 52) (N - 1)) as [Q2|Q2].
      - left. apply (fits_below (N - 1) e P); auto. fold U. replace (N - 1 + 1) with N by lia. exact LP.
      - right. replace N with (shr_m y) by lia. exact B'. }
    destruct C as [C|C].
    + assert (G : (P + N * U) * QH <= N * W e - H e) by (rewrite EW, EH; nia).
      destruct (Z.eq_dec ((P + N * U) * QH) (N * W e - H e)) as [->|D]; [auto|].
      rewrite (mono ((P + N * U) * QH) (N * W e - H e)) by (lia || auto). split; discriminate.
    + rewrite (mono ((P + N * U) * QH) (N * W e)) by (auto; rewrite EW, EH; nia). split; discriminate.
  - intros P FP LP.
    assert (C : (N + 1) * U <= P).
    { destruct (Z.eq_dec e (-1074)) as [Q1|Q1]; [rewrite (One Q1) in *; lia|].
      apply (fits_above N e P); auto. lia. }
    assert (G : N * W e + H e <= (P + N * U) * QH) by (rewrite EW, EH; nia).
    destruct (Z.eq_dec ((P + N * U) * QH) (N * W e + H e)) as [->|D]; [auto|].
    rewrite (mono_up (N * W e + H e) ((P + N * U) * QH)) by (lia || auto). split; discriminate.
  - assert (EL : overflow_limit * Q = (2 ^ 54 - 1) * H 971).
    { unfold overflow_limit. rewrite Q_QH, H_units by lia. change (2 ^ (971 + 1074)) with (2 * 2 ^ 2044). ring. }
    rewrite EL. assert (H971 := H_pos 971 ltac:(unfold base; lia)).
    assert (Fin : N = 0 \/ N < 2 ^ 53 /\ e <= 971 \/ N = 2 ^ 53 /\ e <= 970 -> cmp ((2 ^ 54 - 1) * H 971) = Gt).
    { intros C. assert (Em : e <= 971) by lia. pose proof (H_mono e 971 Le' Em) as HM.
      assert (G : N * W e + H e <= (2 ^ 54 - 1) * H 971 /\ (N * W e + H e = (2 ^ 54 - 1) * H 971 -> N = 2 ^ 53 - 1)).
      { replace (N * W e + H e) with ((2 * N + 1) * H e) by (rewrite EW; ring).
        destruct C as [C|[[C C']|[C C']]].
        - subst N. rewrite C. split; [nia|]. intros. nia.
        - split; [apply Z.mul_le_mono_nonneg; lia|]. intros G. nia.
        - assert (H971' : H 971 = 2 * H 970) by (change 971 with (970 + 1); rewrite H_W by (unfold base; lia); apply W_H; unfold base; lia).
          pose proof (H_mono e 970 Le' C') as HM'. rewrite C. split; nia. }
      destruct G as [G1 G2]. destruct (Z.eq_dec (N * W e + H e) ((2 ^ 54 - 1) * H 971)) as [D|D].
      - specialize (G2 D). rewrite <- D. destruct (cmp (N * W e + H e)) eqn:R; try congruence.
        specialize (N3 (or_intror eq_refl)). rewrite G2 in N3. discriminate N3.
      - apply (mono_up (N * W e + H e)); [lia|exact N2]. }
    assert (Inf : N = 2 ^ 53 /\ 970 < e \/ N <> 0 /\ 971 < e -> cmp ((2 ^ 54 - 1) * H 971) <> Gt).
    { intros C. destruct (Z.le_gt_cases e 971) as [Em|Em].
      - assert (e = 971) by lia. assert (EN : N = 2 ^ 53) by lia. subst e. rewrite EW, EN in N1.
        replace (2 ^ 53 * (2 * H 971) - H 971) with ((2 ^ 54 - 1) * H 971) in N1 by (change (2 ^ 54) with (2 * 2 ^ 53); ring). exact N1.
      - assert (Y52 : 2 ^ 52 <= shr_m y) by lia.
        assert (HM : H (971 + 1) <= H e) by (apply H_mono; unfold base; lia).
        rewrite H_W in HM by (unfold base; lia). rewrite W_H in HM by (unfold base; lia).
        rewrite (mono ((2 ^ 54 - 1) * H 971) (shr_m y * W e)); [discriminate| |exact B'].
        rewrite EW. apply Z.lt_le_trans with (2 ^ 52 * (2 * (2 * H 971))); [change (2 ^ 54) with (2 ^ 52 * 4); lia|].
        apply Z.mul_le_mono_nonneg; lia. }
    unfold made. destruct (Z.eqb_spec N 0) as [Z0|Z0]; [rewrite (Fin (or_introl Z0)); split; [discriminate|congruence]|].
    destruct (Z.eqb_spec N (2 ^ 53)) as [Z1|Z1].
    + destruct (Z.leb_spec (e + 1) 971); [rewrite Fin by lia; split; [discriminate|congruence]|].
      split; [intros _; apply Inf; lia|reflexivity].
    + destruct (Z.leb_spec e 971); [rewrite Fin by lia; split; [discriminate|congruence]|].
      split; [intros _; apply Inf; lia|reflexivity].
Qed.
End Cut.
