(** Rounding to doubles: the result is next to the exact value. *)
From Coq Require Import ZArith Bool List Lia Floats.SpecFloat.
From Verif Require Import Base NumModel NumSpec DblSpec DblProofs.
Import ListNotations.
Open Scope Z_scope.

Lemma pow_pos n : 0 <= n -> 0 < 2 ^ n.
Proof. intros. apply Z.pow_pos_nonneg; lia. Qed.
Lemma pow_split a b : 0 <= a -> 0 <= b -> 2 ^ (a + b) = 2 ^ a * 2 ^ b.
Proof. intros. apply Z.pow_add_r; auto. Qed.
Lemma digits_pos p : let d := Zpos (digits2_pos p) in 2 ^ (d - 1) <= Zpos p < 2 ^ d.
Proof.
  cbv zeta. induction p as [p IH|p IH|]; cbn [digits2_pos]; try (rewrite Pos2Z.inj_succ; unfold Z.succ).
  - replace (Zpos (digits2_pos p) + 1 - 1) with (Zpos (digits2_pos p) - 1 + 1) by lia.
    rewrite !Z.pow_add_r by lia. change (2 ^ 1) with 2. lia.
  - replace (Zpos (digits2_pos p) + 1 - 1) with (Zpos (digits2_pos p) - 1 + 1) by lia.
    rewrite !Z.pow_add_r by lia. change (2 ^ 1) with 2. lia.
  - change (1 - 1) with 0. change (2 ^ 0) with 1. change (2 ^ 1) with 2. lia.
Qed.
Lemma digits_ok m : 0 < m -> 2 ^ (Zdigits2 m - 1) <= m < 2 ^ Zdigits2 m /\ 1 <= Zdigits2 m.
Proof. destruct m as [|p|p]; try lia. intros _. cbn [Zdigits2]. split; [apply digits_pos|lia]. Qed.

(** * Shifting *)
Lemma shr_1_m m r s : 0 <= m -> shr_m (shr_1 (Build_shr_record m r s)) = m / 2 /\
  (m mod 2 = 0 -> r = false -> s = false -> loc_of_shr_record (shr_1 (Build_shr_record m r s)) = loc_Exact).
Proof.
  intros H. destruct m as [|[p|p|]|p]; try lia; cbn [shr_1 shr_m].
  - split; [reflexivity|]. intros _ -> ->. reflexivity.
  - split; [|intros E; exfalso; rewrite Zmod_odd in E; discriminate].
    rewrite Pos2Z.inj_xI. rewrite Z.mul_comm, Z.div_add_l by lia. reflexivity.
  - split; [|intros _ -> ->; reflexivity]. rewrite Pos2Z.inj_xO, Z.mul_comm, Z.div_mul by lia. reflexivity.
  - split; [reflexivity|]. intros E. discriminate E.
Qed.
Definition clean (x : shr_record) : Prop := shr_r x = false /\ shr_s x = false.
Lemma shr_1_clean x : 0 <= shr_m x -> clean x -> shr_m x mod 2 = 0 -> clean (shr_1 x).
Proof.
  destruct x as [m r s]. intros H [E1 E2] Hm. cbn in *. subst. destruct m as [|[p|p|]|p]; try lia; cbn; split; auto;
    try (rewrite Zmod_odd in Hm; discriminate); discriminate.
Qed.
Lemma shr_1_div x : 0 <= shr_m x -> shr_m (shr_1 x) = shr_m x / 2.
Proof. destruct x as [m r s]. intros H. apply shr_1_m; auto. Qed.
Lemma iter_pos_nat {A} (f : A -> A) p : forall x, iter_pos f p x = Nat.iter (Pos.to_nat p) f x.
Proof.
  assert (Plus : forall n m x, Nat.iter (n + m) f x = Nat.iter n f (Nat.iter m f x)).
  { induction n as [|n IH]; intros m x; cbn [plus]; auto. change (f (Nat.iter (n + m) f x) = f (Nat.iter n f (Nat.iter m f x))). now rewrite IH. }
  induction p as [p IH|p IH|]; intros x; cbn [iter_pos].
  - rewrite !IH, Pos2Nat.inj_xI. replace (S (2 * Pos.to_nat p)) with (Pos.to_nat p + Pos.to_nat p + 1)%nat by lia. rewrite !Plus. reflexivity.
  - rewrite !IH, Pos2Nat.inj_xO. replace (2 * Pos.to_nat p)%nat with (Pos.to_nat p + Pos.to_nat p)%nat by lia. rewrite Plus. reflexivity.
  - reflexivity.
Qed.
Lemma iter_shr n x : 0 <= shr_m x -> let y := Nat.iter n shr_1 x in
  shr_m y = shr_m x / 2 ^ Z.of_nat n /\ (clean x -> shr_m x mod 2 ^ Z.of_nat n = 0 -> clean y).
Proof.
  intros H. cbn zeta. induction n as [|n [IH1 IH2]].
  - cbn [Nat.iter nat_rect]. change (2 ^ Z.of_nat 0) with 1. split; [symmetry; apply Z.div_1_r|auto].
  - change (Nat.iter (S n) shr_1 x) with (shr_1 (Nat.iter n shr_1 x)).
    assert (P := pow_pos (Z.of_nat n) ltac:(lia)).
    assert (E : 2 ^ Z.of_nat (S n) = 2 ^ Z.of_nat n * 2) by (rewrite Nat2Z.inj_succ, Z.pow_succ_r by lia; lia).
    assert (N : 0 <= shr_m (Nat.iter n shr_1 x)) by (rewrite IH1; apply Z.div_pos; lia).
    split.
    + rewrite shr_1_div by auto. rewrite IH1, E, Z.div_div by lia. reflexivity.
    + intros C M. rewrite E in M.
      assert (D : exists c, shr_m x = c * 2 * 2 ^ Z.of_nat n).
      { exists (shr_m x / (2 ^ Z.of_nat n * 2)). pose proof (Z.div_mod (shr_m x) (2 ^ Z.of_nat n * 2) ltac:(lia)). lia. }
      destruct D as [c D].
      apply shr_1_clean; auto.
      * apply IH2; auto. rewrite D. apply Z.mod_mul. lia.
      * rewrite IH1, D, Z.div_mul by lia. apply Z.mod_mul. lia.
Qed.

(** * Rounding *)
(** [P] units are the value of a double, or would be if exponents had no upper bound. *)
Definition fits (P : Z) : Prop := exists pm pe, 0 <= pm <= 2 ^ 53 /\ -1074 <= pe /\ P = pm * 2 ^ (pe + 1074).
Definition canonical (m e : Z) : Prop := 0 < m < 2 ^ 53 /\ -1074 <= e /\ (2 ^ 52 <= m \/ e = -1074).
Definition expo (d : Z) : Z := fexp fprec femax d.
Lemma expo_eq d : expo d = Z.max (d - 53) (-1074).
Proof. reflexivity. Qed.
(** [V] is one of the two doubles around a value between [lo] and [hi]. *)
Definition next_to (lo hi V : Z) : Prop := (forall P, fits P -> P <= lo -> P <= V) /\ (forall P, fits P -> hi <= P -> V <= P).
(** Doubles in the binade of a number are multiples of its last place. *)
Lemma fits_below q e P : 2 ^ 52 <= q -> -1074 <= e -> fits P -> P < (q + 1) * 2 ^ (e + 1074) -> P <= q * 2 ^ (e + 1074).
Proof.
  intros Hq He (pm & pe & [H0 Hm] & Hp & ->) H.
  assert (A := pow_pos (e + 1074) ltac:(lia)). assert (B := pow_pos (pe + 1074) ltac:(lia)).
  destruct (Z.le_gt_cases e pe) as [L|L].
  - replace (pe + 1074) with ((pe - e) + (e + 1074)) in * by lia. rewrite pow_split in * by lia.
    rewrite Z.mul_assoc in *. apply (proj2 (Z.mul_lt_mono_pos_r _ _ _ A)) in H. apply Z.mul_le_mono_nonneg_r; lia.
  - replace (e + 1074) with ((e - pe) + (pe + 1074)) in * by lia. rewrite (pow_split (e - pe)) in * by lia.
    assert (C : 2 ^ 1 <= 2 ^ (e - pe)) by (apply Z.pow_le_mono_r; lia). change (2 ^ 1) with 2 in C.
    assert (pm <= 2 ^ 52 * 2) by (change (2 ^ 53) with (2 ^ 52 * 2) in Hm; lia).
    rewrite !Z.mul_assoc. apply Z.mul_le_mono_nonneg_r; [lia|]. nia.
Qed.
Lemma fits_above q e P : 2 ^ 52 <= q -> -1074 <= e -> fits P -> q * 2 ^ (e + 1074) < P -> (q + 1) * 2 ^ (e + 1074) <= P.
Proof.
  intros Hq He F H. destruct (Z.le_gt_cases ((q + 1) * 2 ^ (e + 1074)) P) as [L|L]; auto. exfalso.
  pose proof (fits_below q e P Hq He F L). lia.
Qed.
Lemma fits_exact q P : 0 <= q -> fits P -> P < (q + 1) * 2 ^ (-1074 + 1074) -> P <= q * 2 ^ (-1074 + 1074).
Proof. intros Hq _ H. change (-1074 + 1074) with 0 in *. change (2 ^ 0) with 1 in *. lia. Qed.
Lemma round_aux_ok sx mx ex lx : 0 < mx -> -1074 <= ex -> ex <= expo (Zdigits2 mx + ex) ->
  exists m e, canonical m e /\
    binary_round_aux fprec femax sx mx ex lx = (if e <=? 971 then S754_finite sx (Z.to_pos m) e else S754_infinity sx) /\
    next_to (mx * 2 ^ (ex + 1074)) ((mx + match lx with loc_Exact => 0 | _ => 1 end) * 2 ^ (ex + 1074)) (m * 2 ^ (e + 1074)).
Proof.
  intros Hm He Hx. destruct (digits_ok mx Hm) as [[D1 D2] D3]. set (d := Zdigits2 mx) in *.
  unfold binary_round_aux, shr_fexp. fold d. change (fexp fprec femax (d + ex)) with (expo (d + ex)).
  set (k := expo (d + ex) - ex) in *. assert (Hk : 0 <= k) by (unfold k; lia).
  assert (Kd : k = Z.max (d + ex - 53) (-1074) - ex) by (unfold k; rewrite expo_eq; reflexivity). clearbody k.
  set (x := shr_record_of_loc mx lx). set (q := mx / 2 ^ k).
  assert (Ex : shr_m x = mx) by (unfold x; destruct lx as [|[]]; reflexivity).
  assert (HS : exists y, shr x ex k = (y, ex + k) /\ shr_m y = q /\ (lx = loc_Exact -> mx mod 2 ^ k = 0 -> clean y)).
  { unfold q. destruct k as [|p|p] eqn:Ek; [|exists (iter_pos shr_1 p x)|lia].
    - exists x. cbn [shr]. rewrite Z.add_0_r. split; auto. split; [rewrite Ex; symmetry; apply Z.div_1_r|]. intros -> _. split; reflexivity.
    - cbn [shr]. split; auto. rewrite iter_pos_nat. destruct (iter_shr (Pos.to_nat p) x) as [I1 I2]; [lia|].
      rewrite Ex, positive_nat_Z in *. split; auto. intros -> M. apply I2; auto. split; reflexivity. }
  destruct HS as (y & -> & Ey & Cy).
  set (N := round_nearest_even (shr_m y) (loc_of_shr_record y)).
  assert (HN : (N = q \/ N = q + 1) /\ (lx = loc_Exact -> mx mod 2 ^ k = 0 -> N = q)).
  { unfold N. rewrite Ey. split.
    - unfold round_nearest_even. destruct (loc_of_shr_record y) as [|[]]; auto. destruct (Z.even q); auto.
    - intros E M. destruct (Cy E M) as [C1 C2]. destruct y as [ym yr ys]. cbn in C1, C2. rewrite C1, C2. reflexivity. }
  destruct HN as [HN HNx]. clearbody N.
  assert (Pk := pow_pos k Hk). pose proof (Z.div_mod mx (2 ^ k) ltac:(lia)) as DM. pose proof (Z.mod_pos_bound mx (2 ^ k) Pk) as MB.
  fold q in DM.
  (* the size of q *)
  assert (Hq : (2 ^ 52 <= q < 2 ^ 53) \/ (ex + k = -1074 /\ k = 0 /\ 0 < q < 2 ^ 53)).
  { rewrite expo_eq in Hx. destruct (Z.le_gt_cases (-1074) (d + ex - 53)) as [L|L].
    - left. assert (Ed : d = 53 + k) by lia. rewrite Ed in D1, D2.
      replace (53 + k - 1) with (52 + k) in D1 by lia. rewrite pow_split in D1, D2 by lia.
      split; [apply Z.div_le_lower_bound; lia|apply Z.div_lt_upper_bound; lia].
    - right. assert (k = 0) by lia. split; [lia|]. split; auto. assert (q = mx) by (unfold q; rewrite H; apply Z.div_1_r).
      assert (2 ^ d <= 2 ^ 53) by (apply Z.pow_le_mono_r; lia). lia. }
  assert (He' : -1074 <= ex + k) by lia.
  assert (Hnext : forall m e, -1074 <= e -> m * 2 ^ (e + 1074) = N * 2 ^ (ex + k + 1074) ->
    next_to (mx * 2 ^ (ex + 1074)) ((mx + match lx with loc_Exact => 0 | _ => 1 end) * 2 ^ (ex + 1074)) (m * 2 ^ (e + 1074))).
  { intros m e _ ->. assert (A := pow_pos (ex + 1074) ltac:(lia)).
    assert (E2 : 2 ^ (ex + k + 1074) = 2 ^ k * 2 ^ (ex + 1074)) by (rewrite <- pow_split by lia; f_equal; lia).
    assert (A2 := pow_pos (ex + k + 1074) ltac:(lia)).
    assert (Below : forall P, fits P -> P < (q + 1) * 2 ^ (ex + k + 1074) -> P <= q * 2 ^ (ex + k + 1074)).
    { intros P F. destruct Hq as [Hq|(Hq1 & _ & Hq2)]; [apply fits_below; lia || auto|rewrite Hq1; apply fits_exact; lia || auto]. }
    split.
    - intros P F HP. assert (P <= q * 2 ^ (ex + k + 1074)).
      { apply Below; auto. rewrite E2. nia. }
      nia.
    - intros P F HP. destruct (Z.le_gt_cases ((q + 1) * 2 ^ (ex + k + 1074)) P) as [L|L]; [nia|].
      pose proof (Below P F L) as G.
      assert (mx <= q * 2 ^ k).
      { assert (mx * 2 ^ (ex + 1074) <= q * 2 ^ k * 2 ^ (ex + 1074)); [|nia]. rewrite E2 in G. destruct lx; nia. }
      assert (mx mod 2 ^ k = 0) by lia.
      destruct lx as [|c].
      + rewrite HNx by auto. rewrite E2. nia.
      + exfalso. rewrite E2 in G. nia. }
  (* the second shift *)
  assert (HNr : 0 < N <= 2 ^ 53) by (clear - Hq HN; lia).
  destruct (digits_ok N) as [[F1 F2] F3]; [lia|]. set (dn := Zdigits2 N) in *.
  change (fexp fprec femax (dn + (ex + k))) with (expo (dn + (ex + k))).
  destruct (Z.eq_dec N (2 ^ 53)) as [EN|EN].
  - assert (Edn : dn = 54) by (unfold dn; rewrite EN; reflexivity).
    assert (Ek : expo (dn + (ex + k)) - (ex + k) = 1) by (rewrite expo_eq, Edn; lia).
    rewrite Ek, EN. exists (2 ^ 52), (ex + k + 1). split; [split; [lia|split; [lia|left; lia]]|]. split.
    + cbn [shr iter_pos shr_record_of_loc]. change (shr_1 {| shr_m := 2 ^ 53; shr_r := false; shr_s := false |}) with {| shr_m := 2 ^ 52; shr_r := false; shr_s := false |}.
      cbn [shr_m]. reflexivity.
    + apply Hnext; [lia|]. rewrite EN. replace (ex + k + 1 + 1074) with (1 + (ex + k + 1074)) by lia. rewrite pow_split by lia.
      change (2 ^ 53) with (2 ^ 52 * 2). change (2 ^ 1) with 2. lia.
  - assert (Hd : dn <= 53). { destruct (Z.le_gt_cases dn 53); auto. assert (2 ^ 53 <= 2 ^ (dn - 1)) by (apply Z.pow_le_mono_r; lia). lia. }
    assert (Ek : expo (dn + (ex + k)) - (ex + k) <= 0) by (rewrite expo_eq; lia).
    assert (ES : shr (shr_record_of_loc N loc_Exact) (ex + k) (expo (dn + (ex + k)) - (ex + k)) = ({| shr_m := N; shr_r := false; shr_s := false |}, ex + k)).
    { destruct (expo (dn + (ex + k)) - (ex + k)); try lia; reflexivity. }
    rewrite ES. exists N, (ex + k). split; [|split].
    + split; [lia|]. split; [lia|]. clear - Hq HN. lia.
    + cbn [shr_m]. destruct N as [|p|p]; try lia. change (femax - fprec) with 971. reflexivity.
    + apply Hnext; auto.
Qed.

Lemma shift_pos_eq d m : Zpos (shift_pos d m) = Zpos m * 2 ^ Zpos d.
Proof. rewrite shift_pos_correct, Zpower_pos_nat, Zpower_nat_Z, positive_nat_Z. lia. Qed.
Lemma align_eq m e e' : 0 <= e + 1074 -> 0 <= e' + 1074 -> let '(m', e'') := shl_align m e e' in
  Zpos m' * 2 ^ (e'' + 1074) = Zpos m * 2 ^ (e + 1074) /\ e'' = Z.min e e'.
Proof.
  intros H H'. unfold shl_align. destruct (e' - e) as [|p|p] eqn:E; try (split; [reflexivity|lia]).
  split; [|lia]. rewrite shift_pos_eq. replace (e + 1074) with (Zpos p + (e' + 1074)) by lia. rewrite (Z.pow_add_r 2 (Zpos p)) by lia. ring.
Qed.
(** A positive number of units, rounded. *)
Definition rounded (s : bool) (u : Z) (f : spec_float) : Prop :=
  exists m e, canonical m e /\ f = (if e <=? 971 then S754_finite s (Z.to_pos m) e else S754_infinity s) /\
    next_to u u (m * 2 ^ (e + 1074)).
Lemma round_ok s m e : -1074 <= e -> rounded s (Zpos m * 2 ^ (e + 1074)) (binary_round fprec femax s m e).
Proof.
  intros He. unfold binary_round. change (fexp fprec femax (Zpos (digits2_pos m) + e)) with (expo (Zpos (digits2_pos m) + e)).
  set (e' := expo (Zpos (digits2_pos m) + e)).
  pose proof (align_eq m e e') as A. assert (He' : -1074 <= e') by (unfold e'; rewrite expo_eq; lia).
  assert (HD : let '(mz, ez) := shl_align m e e' in ez <= expo (Zpos (digits2_pos mz) + ez)).
  { unfold shl_align. destruct (e' - e) as [|p|p] eqn:E.
    - unfold e' in *. lia.
    - unfold e' in *. lia.
    - destruct (digits_pos m) as [P1 P2]. destruct (digits_pos (shift_pos p m)) as [Q1 Q2]. rewrite shift_pos_eq in *.
      set (dm := Zpos (digits2_pos m)) in *. set (dz := Zpos (digits2_pos (shift_pos p m))) in *.
      assert (dm + Zpos p <= dz).
      { destruct (Z.le_gt_cases (dm + Zpos p) dz); auto. exfalso.
        assert (2 ^ dz <= 2 ^ (dm - 1 + Zpos p)) by (apply Z.pow_le_mono_r; unfold dm; lia).
        rewrite pow_split in * by (unfold dm; lia). assert (B := pow_pos (Zpos p) ltac:(lia)). nia. }
      assert (Ee : e' = Z.max (dm + e - 53) (-1074)) by (unfold e'; apply expo_eq). rewrite (expo_eq (dz + e')). lia. }
  destruct (shl_align m e e') as [mz ez]. destruct A as [A1 A2]; [lia|lia|].
  destruct (round_aux_ok s (Zpos mz) ez loc_Exact) as (m' & e'' & C & E & N); [lia|lia|exact HD|].
  exists m', e''. split; auto. split; auto. rewrite Z.add_0_r, A1 in N. exact N.
Qed.
Lemma normalize_ok z e b : -1074 <= e ->
  (z = 0 /\ binary_normalize fprec femax z e b = S754_zero b) \/
  (0 < z /\ rounded false (z * 2 ^ (e + 1074)) (binary_normalize fprec femax z e b)) \/
  (z < 0 /\ rounded true (- z * 2 ^ (e + 1074)) (binary_normalize fprec femax z e b)).
Proof.
  intros He. destruct z as [|m|m]; cbn [binary_normalize].
  - left. auto.
  - right. left. split; [lia|]. apply round_ok; auto.
  - right. right. split; [lia|]. apply round_ok; auto.
Qed.
(** Sums and differences. *)
Definition is_rounded (x : Z) (f : spec_float) : Prop :=
  (x = 0 /\ exists b, f = S754_zero b) \/ (0 < x /\ rounded false x f) \/ (x < 0 /\ rounded true (- x) f).
Lemma canonical_fits m e : canonical m e -> fits (m * 2 ^ (e + 1074)).
Proof. intros (H1 & H2 & _). exists m, e. lia. Qed.
Lemma fits_self s m e : binary64 (S754_finite s m e) -> canonical (Zpos m) e /\ e <= 971.
Proof. intros (H1 & H2 & H3). unfold canonical. lia. Qed.
Lemma rounded_self s m e : binary64 (S754_finite s m e) -> rounded s (Zpos m * 2 ^ (e + 1074)) (S754_finite s m e).
Proof.
  intros H. destruct (fits_self _ _ _ H) as [C L]. exists (Zpos m), e. split; auto.
  destruct (Z.leb_spec e 971); [|lia]. split; auto. split; auto.
Qed.
Lemma sum_ok sx mx ex sy my ey : binary64 (S754_finite sx mx ex) -> binary64 (S754_finite sy my ey) ->
  let u := cond_Zopp sx (Zpos mx) * 2 ^ (ex + 1074) in let v := cond_Zopp sy (Zpos my) * 2 ^ (ey + 1074) in
  is_rounded (u + v) (fadd (S754_finite sx mx ex) (S754_finite sy my ey)) /\
  is_rounded (u - v) (fsub (S754_finite sx mx ex) (S754_finite sy my ey)).
Proof.
  intros (_ & Hx & _) (_ & Hy & _) u v. unfold fadd, fsub. cbn [SFadd SFsub]. set (ez := Z.min ex ey).
  pose proof (align_eq mx ex ez ltac:(lia) ltac:(lia)) as A. pose proof (align_eq my ey ez ltac:(lia) ltac:(lia)) as B.
  destruct (shl_align mx ex ez) as [mx' ex'], (shl_align my ey ez) as [my' ey']. cbn [fst].
  destruct A as [A A'], B as [B B']. replace (Z.min ex ez) with ez in A' by lia. replace (Z.min ey ez) with ez in B' by lia. subst ex' ey'.
  assert (P := pow_pos (ez + 1074) ltac:(lia)).
  assert (Eu : u = cond_Zopp sx (Zpos mx') * 2 ^ (ez + 1074)) by (unfold u; destruct sx; cbn [cond_Zopp]; lia).
  assert (Ev : v = cond_Zopp sy (Zpos my') * 2 ^ (ez + 1074)) by (unfold v; destruct sy; cbn [cond_Zopp]; lia).
  rewrite Eu, Ev, <- Z.mul_add_distr_r, <- Z.mul_sub_distr_r.
  assert (G : forall z b, is_rounded (z * 2 ^ (ez + 1074)) (binary_normalize fprec femax z ez b)).
  { intros z b. destruct (normalize_ok z ez b ltac:(lia)) as [[-> E]|[[L R]|[L R]]].
    - left. split; [reflexivity|eauto].
    - right. left. split; [nia|auto].
    - right. right. split; [nia|]. rewrite <- Z.mul_opp_l. auto. }
  split; apply G.
Qed.
Lemma int_rounded z : is_rounded (z * unit_scale) (float_of_Z z).
Proof.
  unfold float_of_Z. change unit_scale with (2 ^ (0 + 1074)). assert (P := pow_pos (0 + 1074) ltac:(lia)).
  destruct (normalize_ok z 0 false ltac:(lia)) as [[-> E]|[[L R]|[L R]]].
  - left. split; [reflexivity|eauto].
  - right. left. split; [nia|auto].
  - right. right. split; [nia|]. rewrite <- Z.mul_opp_l. auto.
Qed.
(** What fits is not changed. *)
Lemma rounded_exact s u f : rounded s u f -> fits u -> u <= 2 ^ 53 * 2 ^ 2045 -> 0 < u ->
  exists m e, canonical m e /\ f = (if e <=? 971 then S754_finite s (Z.to_pos m) e else S754_infinity s) /\ m * 2 ^ (e + 1074) = u.
Proof.
  intros (m & e & C & E & N1 & N2) F _ _. exists m, e. split; auto. split; auto. apply Z.le_antisymm; [apply N2|apply N1]; auto; lia.
Qed.
