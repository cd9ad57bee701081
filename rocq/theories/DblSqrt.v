(** Rounding to the nearest double, and the roots of squares. *)
From Coq Require Import ZArith Bool String List Lia Floats.SpecFloat.
From Verif Require Import Base NumModel NumSpec DblSpec DblProofs DblRound DblArith.
Import ListNotations.
Open Scope Z_scope.

(** * Shifting keeps track of what is shifted out *)
Definition tracks (P mx : Z) (y : shr_record) : Prop :=
  0 <= shr_m y /\ exists R, mx = shr_m y * P + R /\ 0 <= R < P /\
    (if shr_r y then P <= 2 * R /\ (if shr_s y then P < 2 * R else 2 * R = P)
     else 2 * R < P /\ (if shr_s y then 0 < R else R = 0)).
Lemma shr_1_tracks P mx y : 0 < P -> tracks P mx y -> tracks (2 * P) mx (shr_1 y).
Proof.
  destruct y as [m r s]. intros HP (H & R & E & HR & T). cbn [shr_m shr_r shr_s] in *.
  destruct m as [|[p|p|]|p]; try lia; unfold tracks; cbn [shr_1 shr_m shr_r shr_s]; (split; [lia|]).
  - exists R. split; [lia|]. split; [lia|]. destruct r, s; cbn [orb]; lia.
  - exists (P + R). rewrite Pos2Z.inj_xI in E. split; [lia|]. split; [lia|]. destruct r, s; cbn [orb]; lia.
  - exists R. rewrite Pos2Z.inj_xO in E. split; [lia|]. split; [lia|]. destruct r, s; cbn [orb]; lia.
  - exists (P + R). split; [lia|]. split; [lia|]. destruct r, s; cbn [orb]; lia.
Qed.
Lemma iter_tracks n mx : 0 <= mx -> tracks (2 ^ Z.of_nat n) mx (Nat.iter n shr_1 (shr_record_of_loc mx loc_Exact)).
Proof.
  intros H. induction n as [|n IH].
  - split; [exact H|]. exists 0. cbn. lia.
  - rewrite Nat2Z.inj_succ, Z.pow_succ_r by lia.
    change (Nat.iter (S n) shr_1 ?x) with (shr_1 (Nat.iter n shr_1 x)).
    apply shr_1_tracks; auto. apply pow_pos. lia.
Qed.
Lemma tracks_near P mx y : 0 < P -> tracks P mx y ->
  2 * Z.abs (round_nearest_even (shr_m y) (loc_of_shr_record y) * P - mx) <= P.
Proof.
  destruct y as [m r s]. intros HP (H & R & -> & HR & T). cbn [shr_m shr_r shr_s] in *.
  destruct r, s; cbn [loc_of_shr_record round_nearest_even]; try destruct (Z.even m); lia.
Qed.

(** * Large integers become the nearest double *)
Lemma float_near z : 2 ^ 52 <= z < 2 ^ 900 -> exists m e, float_of_Z z = S754_finite false m e /\
  2 ^ 52 <= Zpos m < 2 ^ 53 /\ 0 <= e <= 900 /\ 2 * Z.abs (Zpos m * 2 ^ e - z) <= 2 ^ e.
Proof.
  intros [H HU]. destruct z as [|p|p]; try lia. unfold float_of_Z. cbn [binary_normalize]. unfold binary_round.
  change (fexp fprec femax (Zpos (digits2_pos p) + 0)) with (expo (Zpos (digits2_pos p) + 0)). rewrite expo_eq.
  destruct (digits_pos p) as [D1 D2]. set (d := Zpos (digits2_pos p)) in *.
  assert (Hd : 53 <= d). { assert (52 < d); [|lia]. apply (Z.pow_lt_mono_r_iff 2); lia. }
  assert (HdU : d <= 900).
  { assert (d - 1 < 900); [|lia]. apply (Z.pow_lt_mono_r_iff 2); [lia|lia|]. eapply Z.le_lt_trans; eauto. }
  clear HU.
  replace (Z.max (d + 0 - 53) (-1074)) with (d - 53) by lia.
  assert (SA : shl_align p 0 (d - 53) = (p, 0)).
  { unfold shl_align. rewrite Z.sub_0_r. destruct (d - 53) eqn:X; auto. lia. }
  rewrite SA. unfold binary_round_aux, shr_fexp. cbn [Zdigits2]. fold d.
  change (fexp fprec femax (d + 0)) with (expo (d + 0)). rewrite expo_eq.
  replace (Z.max (d + 0 - 53) (-1074) - 0) with (d - 53) by lia.
  set (k := d - 53) in *. assert (Hk : 0 <= k) by (unfold k; lia). assert (Pk := pow_pos k Hk).
  assert (HS : exists y, shr (shr_record_of_loc (Zpos p) loc_Exact) 0 k = (y, k) /\ tracks (2 ^ k) (Zpos p) y).
  { destruct k as [|q|q] eqn:Ek; [| |lia].
    - eexists. split; [reflexivity|]. apply (iter_tracks 0). lia.
    - exists (iter_pos shr_1 q (shr_record_of_loc (Zpos p) loc_Exact)). split; [cbn [shr]; f_equal; lia|].
      rewrite iter_pos_nat. rewrite <- (positive_nat_Z q). apply iter_tracks. lia. }
  destruct HS as (y & -> & T). pose proof (tracks_near _ _ _ Pk T) as NE.
  set (N := round_nearest_even (shr_m y) (loc_of_shr_record y)) in *. clearbody N.
  assert (Hq : 2 ^ 52 <= shr_m y < 2 ^ 53).
  { destruct T as (T0 & R & E & HR & _). replace d with (53 + k) in D2 by (unfold k; lia).
    replace (d - 1) with (52 + k) in D1 by (unfold k; lia). rewrite pow_split in D1, D2 by lia. nia. }
  assert (HN : 2 ^ 52 <= N <= 2 ^ 53).
  { destruct T as (T0 & R & E & HR & _). rewrite E in NE. split.
    - assert (2 * shr_m y - 1 <= 2 * N); [|lia]. nia.
    - assert (2 * N <= 2 * shr_m y + 3); [nia|].
      assert (N <= shr_m y + 1); [|lia]. nia. }
  destruct (digits_ok N) as [[F1 F2] F3]; [lia|]. set (dn := Zdigits2 N) in *.
  change (fexp fprec femax (dn + k)) with (expo (dn + k)). rewrite expo_eq.
  destruct (Z.eq_dec N (2 ^ 53)) as [EN|EN].
  - assert (Edn : dn = 54) by (unfold dn; rewrite EN; reflexivity). rewrite Edn.
    replace (Z.max (54 + k - 53) (-1074) - k) with 1 by lia. rewrite EN.
    cbn [shr iter_pos shr_record_of_loc]. change (shr_1 {| shr_m := 2 ^ 53; shr_r := false; shr_s := false |}) with {| shr_m := 2 ^ 52; shr_r := false; shr_s := false |}.
    cbn [shr_m]. change (2 ^ 52) with (Zpos (2 ^ 52)) at 1. cbn iota.
    change (femax - fprec) with 971. destruct (Z.leb_spec (k + 1) 971); [|lia].
    exists (2 ^ 52)%positive, (k + 1). split; [reflexivity|]. split; [lia|]. split; [lia|].
    rewrite pow_split by lia. change (2 ^ 1) with 2. change (Zpos (2 ^ 52)) with (2 ^ 52). rewrite EN in NE. lia.
  - assert (Hdn : dn <= 53). { destruct (Z.le_gt_cases dn 53); auto. assert (2 ^ 53 <= 2 ^ (dn - 1)) by (apply Z.pow_le_mono_r; lia). lia. }
    assert (ES : shr (shr_record_of_loc N loc_Exact) k (Z.max (dn + k - 53) (-1074) - k) = ({| shr_m := N; shr_r := false; shr_s := false |}, k)).
    { destruct (Z.max (dn + k - 53) (-1074) - k) eqn:X; try lia; reflexivity. }
    rewrite ES. cbn [shr_m]. destruct N as [|n|n]; try lia. change (femax - fprec) with 971.
    destruct (Z.leb_spec k 971); [|lia].
    exists n, k. split; [reflexivity|]. split; [lia|]. split; [lia|]. exact NE.
Qed.

(** * A root with all its bits *)
Lemma round_53 q e l N : 2 ^ 52 <= Zpos q < 2 ^ 53 -> -900 <= e <= 900 ->
  round_nearest_even (Zpos q) l = N -> 2 ^ 52 <= N <= 2 ^ 53 ->
  let f := binary_round_aux fprec femax false (Zpos q) e l in
  binary64 f /\ units f = Some (N * 2 ^ (e + 1074)).
Proof.
  intros Hq He EN HN. cbv zeta. unfold binary_round_aux, shr_fexp. cbn [Zdigits2]. rewrite digits_53 by auto.
  change (fexp fprec femax (53 + e)) with (expo (53 + e)). rewrite expo_eq.
  replace (Z.max (53 + e - 53) (-1074) - e) with 0 by lia. cbn [shr].
  assert (EL : loc_of_shr_record (shr_record_of_loc (Zpos q) l) = l) by (destruct l as [|[]]; reflexivity).
  assert (EM : shr_m (shr_record_of_loc (Zpos q) l) = Zpos q) by (destruct l as [|[]]; reflexivity).
  rewrite EL, EM, EN.
  destruct (digits_ok N) as [[F1 F2] F3]; [lia|]. set (dn := Zdigits2 N) in *.
  change (fexp fprec femax (dn + e)) with (expo (dn + e)). rewrite expo_eq.
  destruct (Z.eq_dec N (2 ^ 53)) as [X|X].
  - assert (Edn : dn = 54) by (unfold dn; rewrite X; reflexivity). rewrite Edn.
    replace (Z.max (54 + e - 53) (-1074) - e) with 1 by lia. rewrite X.
    cbn [shr iter_pos shr_record_of_loc]. change (shr_1 {| shr_m := 2 ^ 53; shr_r := false; shr_s := false |}) with {| shr_m := 2 ^ 52; shr_r := false; shr_s := false |}.
    cbn [shr_m]. change (2 ^ 52) with (Zpos (2 ^ 52)) at 1 2. cbn iota.
    change (femax - fprec) with 971. destruct (Z.leb_spec (e + 1) 971); [|lia].
    split; [cbn [binary64]; change (Zpos (2 ^ 52)) with (2 ^ 52); lia|].
    cbn [units]. f_equal. change (Zpos (2 ^ 52)) with (2 ^ 52). replace (e + 1 + 1074) with (1 + (e + 1074)) by lia.
    rewrite pow_split by lia. change (2 ^ 53) with (2 ^ 52 * 2). change (2 ^ 1) with 2. ring.
  - assert (Hdn : dn <= 53). { destruct (Z.le_gt_cases dn 53); auto. assert (2 ^ 53 <= 2 ^ (dn - 1)) by (apply Z.pow_le_mono_r; lia). lia. }
    assert (ES : shr (shr_record_of_loc N loc_Exact) e (Z.max (dn + e - 53) (-1074) - e) = ({| shr_m := N; shr_r := false; shr_s := false |}, e)).
    { destruct (Z.max (dn + e - 53) (-1074) - e) eqn:Y; try lia; reflexivity. }
    rewrite ES. cbn [shr_m]. destruct N as [|n|n]; try lia. change (femax - fprec) with 971.
    destruct (Z.leb_spec e 971); [|lia]. split; [cbn [binary64]; lia|]. cbn [units]. reflexivity.
Qed.

(** The root of the double nearest to a square is the root of the square. *)
Lemma root_square t : 2 ^ 26 <= t < 2 ^ 53 -> exists m e, float_of_Z (t * t) = S754_finite false m e /\
  binary64 (fsqrt (float_of_Z (t * t))) /\ units (fsqrt (float_of_Z (t * t))) = Some (t * unit_scale).
Proof.
  intros H. assert (Hz : 2 ^ 52 <= t * t < 2 ^ 900).
  { split; [change (2 ^ 52) with (2 ^ 26 * 2 ^ 26); nia|]. apply Z.le_lt_trans with (2 ^ 53 * 2 ^ 53); [nia|reflexivity]. }
  destruct (float_near _ Hz) as (m & e & E & Hm & He & NE). clear Hz. exists m, e. split; auto. rewrite E.
  assert (Pe := pow_pos e ltac:(lia)).
  assert (He2 : e <= 53).
  { destruct (Z.le_gt_cases e 53) as [|X]; auto. exfalso.
    assert (2 ^ 54 <= 2 ^ e) by (apply Z.pow_le_mono_r; lia).
    assert (2 ^ e * (2 * Zpos m - 1) <= 2 * (t * t)) by nia.
    assert (t * t <= (2 ^ 53 - 1) * (2 ^ 53 - 1)) by nia. nia. }
  unfold fsqrt, SFsqrt, SFsqrt_core_binary. cbn [Zdigits2]. rewrite digits_53 by auto.
  set (h := Z.div2 e).
  assert (Hh : e = 2 * h \/ e = 2 * h + 1).
  { pose proof (Z.div2_odd e) as X. fold h in X. destruct (Z.odd e); cbn [Z.b2z] in X; lia. }
  assert (E1 : Z.div2 (53 + e + 1) = h + 27).
  { rewrite Z.div2_div. destruct Hh as [Hh|Hh]; rewrite Hh.
    - replace (53 + 2 * h + 1) with ((h + 27) * 2) by ring. apply Z.div_mul. lia.
    - replace (53 + (2 * h + 1) + 1) with (1 + (h + 27) * 2) by ring. rewrite Z.div_add by lia. reflexivity. }
  rewrite E1. change (fexp fprec femax (h + 27)) with (expo (h + 27)). rewrite expo_eq.
  assert (E2 : Z.min (Z.max (h + 27 - 53) (-1074)) h = h - 26) by lia. rewrite E2.
  set (k := 26 - h). assert (Ek : h - 26 = - k) by (unfold k; lia). rewrite Ek.
  assert (Hk : 0 <= k <= 26) by (unfold k; lia).
  set (sh := e - 2 * - k). assert (Hs : 52 <= sh <= 53) by (unfold sh, k; lia).
  assert (Em' : match sh with Z0 => Zpos m | Zpos _ => Z.shiftl (Zpos m) sh | Zneg _ => 0 end = Zpos m * 2 ^ sh).
  { destruct sh as [|p|p] eqn:X; try lia. rewrite Z.shiftl_mul_pow2 by lia. reflexivity. }
  rewrite Em'. set (M := Zpos m * 2 ^ sh) in *.
  set (T := t * 2 ^ k). assert (Pk := pow_pos k ltac:(lia)).
  assert (S53 : 2 ^ 52 <= 2 ^ sh <= 2 ^ 53) by (split; apply Z.pow_le_mono_r; lia).
  assert (DM : 2 * Z.abs (M - T * T) <= 2 ^ 53).
  { assert (Es : 2 ^ sh = 2 ^ e * (2 ^ k * 2 ^ k)).
    { rewrite <- !pow_split by lia. f_equal. unfold sh. lia. }
    assert (EM : M - T * T = (Zpos m * 2 ^ e - t * t) * (2 ^ k * 2 ^ k)) by (unfold M, T; rewrite Es; ring).
    rewrite EM, Z.abs_mul, (Z.abs_eq (2 ^ k * 2 ^ k)) by nia.
    apply Z.le_trans with (2 ^ e * (2 ^ k * 2 ^ k)); [|lia].
    rewrite Z.mul_assoc. apply Z.mul_le_mono_nonneg_r; [nia|exact NE]. }
  assert (HM : 2 ^ 52 * 2 ^ 52 <= M < 2 ^ 53 * 2 ^ 53) by (unfold M; nia).
  clearbody M. assert (T0 : 0 <= T) by (unfold T; nia).
  assert (ET : T * 2 ^ (- k + 1074) = t * unit_scale).
  { unfold T, unit_scale. rewrite <- Z.mul_assoc, <- pow_split by lia. do 2 f_equal. lia. }
  clearbody T.
  assert (TL : 2 ^ 52 <= T). { destruct (Z.le_gt_cases (2 ^ 52) T); auto. exfalso. assert (T * T <= (2 ^ 52 - 1) * (2 ^ 52 - 1)) by nia. lia. }
  assert (TU : T <= 2 ^ 53). { destruct (Z.le_gt_cases T (2 ^ 53)); auto. exfalso. assert ((2 ^ 53 + 1) * (2 ^ 53 + 1) <= T * T) by nia. lia. }
  pose proof (Z.sqrtrem_spec M ltac:(lia)) as SQ. destruct (Z.sqrtrem M) as [q r]. destruct SQ as [SQ1 SQ2].
  assert (Hq : 2 ^ 52 <= q). { assert (2 ^ 52 < q + 1); [|lia]. apply sq_lt; lia. }
  assert (HqU : q < 2 ^ 53) by (apply sq_lt; lia).
  set (l := if Zeq_bool r 0 then loc_Exact else loc_Inexact (if r <=? q then Lt else Gt)).
  assert (EN : round_nearest_even q l = T).
  { destruct (Z.le_gt_cases (T * T) M) as [L|L].
    - assert (q = T). { assert (T < q + 1) by (apply sq_lt; lia). assert (q < T + 1) by (apply sq_lt; lia). lia. }
      subst T. unfold l. destruct (Zeq_bool r 0); [reflexivity|]. destruct (Z.leb_spec r q); [reflexivity|]. exfalso. lia.
    - assert (2 ^ 52 < T) by (apply sq_lt; lia).
      assert (q = T - 1).
      { assert (T - 1 < q + 1) by (apply sq_lt; lia). assert (q < T) by (apply sq_lt; lia). lia. }
      unfold l. pose proof (Zeq_bool_if r 0) as Z0. destruct (Zeq_bool r 0); [exfalso; nia|].
      destruct (Z.leb_spec r q); [exfalso; nia|]. cbn [round_nearest_even]. lia. }
  destruct q as [|qp|qp]; try lia.
  rewrite <- ET. apply round_53; auto; lia.
Qed.

Lemma send_sqrt_square m t : 0 <= t <= 2 ^ 53 -> send0 m (VInt (t * t)) "sqrt" = Ok (VInt t).
Proof.
  intros H. destruct (Z.eq_dec t (2 ^ 53)) as [->|Nt]; [destruct m; vm_compute; reflexivity|].
  destruct (Z.lt_ge_cases t (2 ^ 26)) as [L|L].
  { apply (proj1 (send_sqrt m (t * t) ltac:(change (2 ^ 52) with (2 ^ 26 * 2 ^ 26); nia))); lia. }
  destruct (root_square t ltac:(lia)) as (fm & fe & E & B & U).
  destruct (int_exact t ltac:(lia)) as [Bt Ut]. pose proof scale_pos as SP.
  change (send0 m (VInt (t * t)) "sqrt") with (p_sqrt m (VInt (t * t))). unfold p_sqrt.
  destruct (Z.ltb_spec (t * t) 0); [nia|].
  assert (TF : int_tofloat m (t * t) = Ok (float_of_Z (t * t))).
  { destruct m; [reflexivity|]. unfold int_tofloat, big_tofloat. rewrite E. reflexivity. }
  rewrite TF. cbn [bind].
  assert (TR : py_int_of_float m (fsqrt (float_of_Z (t * t))) = Ok t).
  { unfold py_int_of_float. rewrite (trunc_is _ _ t B U) by apply cut_whole.
    destruct m; [|reflexivity].
    assert (W : fits_word t = true) by (unfold fits_word, word_min, word_max; apply andb_true_iff; rewrite !Z.leb_le; lia).
    rewrite W. reflexivity. }
  rewrite TR. cbn [bind]. rewrite tofloat_ok by lia. cbn [bind].
  rewrite (feq_units _ _ _ _ B Bt U Ut), Z.eqb_refl. reflexivity.
Qed.
