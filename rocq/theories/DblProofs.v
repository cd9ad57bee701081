(** Lemmas about the comparisons and conversions of doubles. *)
From Coq Require Import ZArith Bool String List Lia Floats.SpecFloat.
From Verif Require Import Base NumModel NumSpec DblSpec.
Import ListNotations.
Open Scope Z_scope.

Lemma bigger_exponent m1 e1 m2 e2 s1 s2 :
  binary64 (S754_finite s1 m1 e1) -> binary64 (S754_finite s2 m2 e2) -> e1 < e2 ->
  Zpos m1 * 2 ^ (e1 + 1074) < Zpos m2 * 2 ^ (e2 + 1074).
Proof.
  cbn [binary64]. intros [A1 [B1 C1]] [A2 [B2 C2]] H.
  assert (2 ^ 52 <= Zpos m2) as L by lia.
  replace (e2 + 1074) with ((e2 - e1) + (e1 + 1074)) by lia.
  rewrite (Z.pow_add_r 2 (e2 - e1)) by lia.
  assert (0 < 2 ^ (e1 + 1074)) by (apply Z.pow_pos_nonneg; lia).
  assert (2 ^ 1 <= 2 ^ (e2 - e1)) by (apply Z.pow_le_mono_r; lia).
  change (2 ^ 1) with 2 in *.
  assert (2 ^ 53 = 2 * 2 ^ 52) as E by reflexivity.
  assert (Zpos m1 < Zpos m2 * 2 ^ (e2 - e1)).
  { apply Z.lt_le_trans with (2 ^ 52 * 2); [lia|]. apply Z.mul_le_mono_nonneg; lia. }
  rewrite Z.mul_assoc. apply Z.mul_lt_mono_pos_r; lia.
Qed.

Lemma compare_units m1 e1 m2 e2 s1 s2 :
  binary64 (S754_finite s1 m1 e1) -> binary64 (S754_finite s2 m2 e2) ->
  match Z.compare e1 e2 with Lt => Lt | Gt => Gt | Eq => Pcompare m1 m2 Eq end
  = Z.compare (Zpos m1 * 2 ^ (e1 + 1074)) (Zpos m2 * 2 ^ (e2 + 1074)).
Proof.
  intros H1 H2. destruct (Z.compare_spec e1 e2) as [-> | L | L].
  - symmetry. change (Pcompare m1 m2 Eq) with (Z.compare (Zpos m1) (Zpos m2)).
    destruct H1 as [_ [B _]].
    assert (0 < 2 ^ (e2 + 1074)) by (apply Z.pow_pos_nonneg; lia).
    rewrite !(Z.mul_comm _ (2 ^ _)). symmetry. apply Zmult_compare_compat_l. lia.
  - symmetry. apply Z.compare_lt_iff. eapply bigger_exponent; eauto.
  - symmetry. apply Z.compare_gt_iff. eapply bigger_exponent; eauto.
Qed.

Lemma compare_exact f g : binary64 f -> binary64 g ->
  match SFcompare f g with
  | Some Lt => below (exactly f) (exactly g)
  | Some Gt => below (exactly g) (exactly f)
  | Some Eq => same (exactly f) (exactly g)
  | None => exactly f = NotANumber \/ exactly g = NotANumber
  end.
Proof.
  intros Hf Hg.
  assert (P : forall s m e, binary64 (S754_finite s m e) -> 0 < Zpos m * 2 ^ (e + 1074)).
  { intros s m e [_ [B _]]. apply Z.mul_pos_pos; [lia|]. apply Z.pow_pos_nonneg; lia. }
  destruct f as [sf|sf| |sf mf ef]; destruct g as [sg|sg| |sg mg eg]; cbn [SFcompare exactly units];
    try destruct sf; try destruct sg; cbn [below same]; unfold same; auto;
    try (split; [reflexivity|discriminate]);
    try (pose proof (P _ _ _ Hf)); try (pose proof (P _ _ _ Hg)); try (cbn [below]; lia).
  - pose proof (compare_units _ _ _ _ _ _ Hf Hg) as C.
    destruct (ef ?= eg); destruct (Z.compare_spec (Zpos mf * 2 ^ (ef + 1074)) (Zpos mg * 2 ^ (eg + 1074)));
      try discriminate C; try rewrite C; cbn [CompOpp below];
      try (split; [f_equal; lia|discriminate]); lia.
  - pose proof (compare_units _ _ _ _ _ _ Hf Hg) as C.
    destruct (ef ?= eg); destruct (Z.compare_spec (Zpos mf * 2 ^ (ef + 1074)) (Zpos mg * 2 ^ (eg + 1074)));
      try discriminate C; try rewrite C; cbn [below];
      try (split; [f_equal; lia|discriminate]); lia.
Qed.

Lemma below_irrefl a : ~ below a a.
Proof. destruct a; cbn; lia. Qed.
Lemma below_asym a b : below a b -> ~ below b a.
Proof. destruct a, b; cbn; try tauto; lia. Qed.

Lemma lt_ok f g : binary64 f -> binary64 g -> flt f g = true <-> below (exactly f) (exactly g).
Proof.
  intros Hf Hg. pose proof (compare_exact f g Hf Hg) as C. unfold flt, SFltb.
  destruct (SFcompare f g) as [[]|]; split; intros H; auto; try discriminate H; exfalso.
  - destruct C as [C _]. rewrite C in H. eapply below_irrefl, H.
  - eapply below_asym; eauto.
  - destruct C as [C|C]; rewrite C in H; destruct (exactly f), (exactly g); cbn in H; auto.
Qed.
Lemma eq_ok f g : binary64 f -> binary64 g -> feq f g = true <-> same (exactly f) (exactly g).
Proof.
  intros Hf Hg. pose proof (compare_exact f g Hf Hg) as C. unfold feq, SFeqb.
  destruct (SFcompare f g) as [[]|]; split; intros H; auto; try discriminate H; exfalso; destruct H as [H N].
  - rewrite H in C. eapply below_irrefl, C.
  - rewrite H in C. eapply below_irrefl, C.
  - destruct C as [C|C]; congruence.
Qed.
Lemma le_ok f g : binary64 f -> binary64 g ->
  fle f g = true <-> below (exactly f) (exactly g) \/ same (exactly f) (exactly g).
Proof.
  intros Hf Hg. rewrite <- lt_ok, <- eq_ok by auto. unfold fle, flt, feq, SFleb, SFltb, SFeqb.
  destruct (SFcompare f g) as [[]|]; intuition discriminate.
Qed.

Lemma bool_answer b P : (b = true <-> P) -> answers_bool (Ok (som_bool b)) P.
Proof.
  intros [H1 H2]. destruct b; [left|right]; split; auto. intros X. apply H2 in X. discriminate X.
Qed.
Lemma neg_answer b P : (b = true <-> P) -> answers_bool (Ok (som_bool (negb b))) (~ P).
Proof. intros H. apply bool_answer. destruct b; cbn; intuition discriminate. Qed.

Lemma dbl_order m f g : binary64 f -> binary64 g ->
  let a := exactly f in let b := exactly g in
  answers_bool (send1 m (VDbl f) "<" (VDbl g)) (below a b)
  /\ answers_bool (send1 m (VDbl f) "<=" (VDbl g)) (below a b \/ same a b)
  /\ answers_bool (send1 m (VDbl f) ">" (VDbl g)) (below b a)
  /\ answers_bool (send1 m (VDbl f) ">=" (VDbl g)) (below b a \/ same a b)
  /\ answers_bool (send1 m (VDbl f) "=" (VDbl g)) (same a b)
  /\ answers_bool (send1 m (VDbl f) "<>" (VDbl g)) (~ same a b)
  /\ answers_bool (send1 m (VDbl f) "~=" (VDbl g)) (~ same a b).
Proof.
  intros Hf Hg a b.
  split; [|split; [|split; [|split; [|split; [|split]]]]].
  - apply bool_answer, lt_ok; auto.
  - apply bool_answer, le_ok; auto.
  - apply bool_answer, lt_ok; auto.
  - apply bool_answer. rewrite le_ok by auto. fold a b.
    unfold same. split; (intros [H|[H1 H2]]; [left; exact H | right; split; congruence]).
  - apply bool_answer, eq_ok; auto.
  - apply neg_answer, eq_ok; auto.
  - apply neg_answer, eq_ok; auto.
Qed.

Lemma dbl_min_max m f g : binary64 f -> binary64 g ->
  let a := exactly f in let b := exactly g in
  (below a b -> send1 m (VDbl f) "min:" (VDbl g) = Ok (VDbl f) /\ send1 m (VDbl f) "max:" (VDbl g) = Ok (VDbl g)) /\
  (~ below a b -> send1 m (VDbl f) "min:" (VDbl g) = Ok (VDbl g) /\ send1 m (VDbl f) "max:" (VDbl g) = Ok (VDbl f)).
Proof.
  intros Hf Hg a b. pose proof (lt_ok f g Hf Hg) as L. fold a b in L.
  change (send1 m (VDbl f) "min:" (VDbl g)) with (Ok (if flt f g then VDbl f else VDbl g)).
  change (send1 m (VDbl f) "max:" (VDbl g)) with (Ok (if flt f g then VDbl g else VDbl f)).
  destruct (flt f g).
  - split; intros H; [split; reflexivity|]. exfalso. apply H, L. reflexivity.
  - split; intros H; [|split; reflexivity]. apply L in H. discriminate.
Qed.
Lemma dbl_min_max_mixed m f v x g : int_val v = Some x -> binary64 f -> binary64 g ->
  send0 m v "asDouble" = Ok (VDbl g) ->
  let a := exactly f in let b := exactly g in
  (below a b -> send1 m (VDbl f) "min:" v = Ok (VDbl f) /\ send1 m (VDbl f) "max:" v = Ok v) /\
  (~ below a b -> send1 m (VDbl f) "min:" v = Ok v /\ send1 m (VDbl f) "max:" v = Ok (VDbl f)) /\
  (below b a -> send1 m v "min:" (VDbl f) = Ok v /\ send1 m v "max:" (VDbl f) = Ok (VDbl f)) /\
  (~ below b a -> send1 m v "min:" (VDbl f) = Ok (VDbl f) /\ send1 m v "max:" (VDbl f) = Ok v).
Proof.
  intros Hv Hf Hg E a b. pose proof (lt_ok f g Hf Hg) as L. pose proof (lt_ok g f Hg Hf) as L'. fold a b in L, L'.
  assert (G : get_float m v = Ok g).
  { destruct v; try discriminate Hv; cbv [send0 integer_unary String.eqb Ascii.eqb Bool.eqb prim_as_double get_float] in *;
    match type of E with bind ?c _ = _ => destruct c; [|discriminate E] end; cbn [bind] in E; congruence. }
  assert (A : prim_less_than m (VDbl f) v = Ok (flt f g)).
  { unfold prim_less_than, dbl_less_than. rewrite G. reflexivity. }
  assert (B : prim_less_than m v (VDbl f) = Ok (flt g f)).
  { destruct v; try discriminate Hv; cbn [get_float] in G; unfold prim_less_than, int_less_than, big_less_than, int_to_double, big_to_double, dbl_less_than;
    cbn [get_float bind]; rewrite G; reflexivity. }
  assert (M : send1 m (VDbl f) "min:" v = num_min m (VDbl f) v) by reflexivity.
  assert (X : send1 m (VDbl f) "max:" v = num_max m (VDbl f) v) by reflexivity.
  assert (M' : send1 m v "min:" (VDbl f) = num_min m v (VDbl f)) by (destruct v; try discriminate Hv; reflexivity).
  assert (X' : send1 m v "max:" (VDbl f) = num_max m v (VDbl f)) by (destruct v; try discriminate Hv; reflexivity).
  rewrite M, X, M', X'. unfold num_min, num_max. rewrite A, B. cbn [bind].
  destruct (flt f g), (flt g f); intuition congruence.
Qed.

Lemma trunc_ok f u : binary64 f -> units f = Some u -> exists z, trunc_Z f = Some z /\ cut_off u z.
Proof.
  intros Hf Hu. assert (S : 0 < unit_scale) by (apply Z.pow_pos_nonneg; lia).
  destruct f as [s|s| |s m e]; try discriminate Hu; injection Hu as <-; eexists; (split; [reflexivity|]).
  - unfold cut_off. lia.
  - destruct Hf as [_ [B _]].
    set (a := if 0 <=? e then Zpos m * 2 ^ e else Zpos m / 2 ^ (- e)).
    assert (A : 0 <= a /\ a * unit_scale <= Zpos m * 2 ^ (e + 1074) < (a + 1) * unit_scale).
    { unfold a, unit_scale. destruct (Z.leb_spec 0 e) as [L|L].
      - rewrite Z.pow_add_r by lia. assert (0 < 2 ^ e) by (apply Z.pow_pos_nonneg; lia).
        fold unit_scale. split; nia.
      - pose proof (Z.mod_pos_bound (Zpos m) (2 ^ (- e))) as M.
        assert (P : 0 < 2 ^ (- e)) by (apply Z.pow_pos_nonneg; lia).
        pose proof (Z.div_mod (Zpos m) (2 ^ (- e)) ltac:(lia)) as D.
        assert (0 <= Zpos m / 2 ^ (- e)) by (apply Z.div_pos; lia).
        specialize (M P).
        replace (2 ^ 1074) with (2 ^ (- e) * 2 ^ (e + 1074)) by (rewrite <- Z.pow_add_r by lia; f_equal; lia).
        assert (0 < 2 ^ (e + 1074)) by (apply Z.pow_pos_nonneg; lia).
        split; [lia|]. rewrite !Z.mul_assoc.
        split; [apply Z.mul_le_mono_nonneg_r; nia | apply Z.mul_lt_mono_pos_r; nia]. }
    assert (0 < Zpos m * 2 ^ (e + 1074)).
    { apply Z.mul_pos_pos; [lia|]. apply Z.pow_pos_nonneg; lia. }
    unfold cut_off. destruct s; cbn [cond_Zopp].
    + replace (-1 * Zpos m * 2 ^ (e + 1074)) with (- (Zpos m * 2 ^ (e + 1074))) by ring.
      split; [lia|]. intros _. nia.
    + rewrite Z.mul_1_l. split; [|lia]. intros _. lia.
Qed.

Lemma as_integer_ok m f u : binary64 f -> units f = Some u ->
  exists z, cut_off u z /\
    (word_sized m z -> send0 m (VDbl f) "asInteger" = Ok (VInt z)) /\
    (~ word_sized m z -> send0 m (VDbl f) "asInteger" = Err UndefinedBehaviour).
Proof.
  intros Hf Hu. destruct (trunc_ok f u Hf Hu) as [z [T C]]. exists z. split; auto.
  change (send0 m (VDbl f) "asInteger") with (z <- py_int_of_float m f ;; Ok (VInt z)).
  unfold py_int_of_float. rewrite T. unfold word_sized.
  destruct m; [|split; [reflexivity|tauto]].
  unfold fits_word, word_min, word_max. split; intros W.
  - replace ((- 2 ^ 63 <=? z) && (z <=? 2 ^ 63 - 1)) with true; [reflexivity|].
    symmetry. apply andb_true_iff. rewrite !Z.leb_le. lia.
  - destruct ((- 2 ^ 63 <=? z) && (z <=? 2 ^ 63 - 1)) eqn:E; [|reflexivity].
    apply andb_true_iff in E. rewrite !Z.leb_le in E. lia.
Qed.
