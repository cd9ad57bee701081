(** Comparisons of numbers of any two classes. *)
From Coq Require Import ZArith Bool String List Lia Floats.SpecFloat.
From Verif Require Import Base NumModel NumSpec NumProofs DblSpec DblProofs DblRound DblArith ModeProofs CmpSpec.
Import ListNotations.
Open Scope Z_scope.

Definition comparisons : list string := ["<"; "<="; ">"; ">="; "="; "<>"; "~="]%string.

Lemma units_exactly f u : units f = Some u -> exactly f = Exactly u.
Proof. destruct f as [s|s| |s p e]; cbn [units exactly]; intros H; try discriminate; congruence. Qed.
Lemma common_double m a x : int_val a = Some x -> common a ->
  - 2 ^ 53 <= x <= 2 ^ 53 /\ send0 m a "asDouble" = Ok (VDbl (float_of_Z x)).
Proof.
  intros I C. destruct a; try discriminate I; injection I as ->; cbn [common] in C; split; auto.
  - change (send0 m (VInt x) "asDouble") with (f <- int_tofloat m x ;; Ok (VDbl f)). rewrite tofloat_ok by exact C. reflexivity.
  - change (send0 m (VBig x) "asDouble") with (f <- int_tofloat Hosted x ;; Ok (VDbl f)). rewrite tofloat_ok by exact C. reflexivity.
Qed.
Lemma left_coerced m a x d sel : int_val a = Some x -> common a -> binary64 d -> In sel comparisons ->
  send1 m a sel (VDbl d) = send1 m (VDbl (float_of_Z x)) sel (VDbl d).
Proof.
  intros I C B S. destruct (common_double m a x I C) as [L D]. destruct m.
  - apply (mixed_left Translated a x); auto. unfold coercing. unfold comparisons in S. cbn [app In] in *. tauto.
  - unfold comparisons in S. cbn [In] in S. destruct S as [<-|[<-|[<-|[<-|[<-|[<-|[<-|[]]]]]]]];
      try (apply (mixed_left Hosted a x); auto; unfold coercing; cbn [app In]; tauto).
    all: destruct a; try discriminate I; injection I as ->.
    + change (Ok (som_bool (exact_eq x d)) = Ok (som_bool (feq (float_of_Z x) d))). rewrite <- exact_equal by auto. reflexivity.
    + change ((lf <- int_tofloat Hosted x ;; Ok (som_bool (feq lf d))) = Ok (som_bool (feq (float_of_Z x) d))). rewrite tofloat_ok by exact L. reflexivity.
    + change (Ok (som_bool (negb (exact_eq x d))) = Ok (som_bool (negb (feq (float_of_Z x) d)))). rewrite <- exact_equal by auto. reflexivity.
    + change ((lf <- int_tofloat Hosted x ;; Ok (som_bool (negb (feq lf d)))) = Ok (som_bool (negb (feq (float_of_Z x) d)))). rewrite tofloat_ok by exact L. reflexivity.
    + change (Ok (som_bool (negb (exact_eq x d))) = Ok (som_bool (negb (feq (float_of_Z x) d)))). rewrite <- exact_equal by auto. reflexivity.
    + change ((lf <- int_tofloat Hosted x ;; Ok (som_bool (negb (feq lf d)))) = Ok (som_bool (negb (feq (float_of_Z x) d)))). rewrite tofloat_ok by exact L. reflexivity.
Qed.
Lemma right_coerced m a x d sel : int_val a = Some x -> common a -> In sel comparisons ->
  send1 m (VDbl d) sel a = send1 m (VDbl d) sel (VDbl (float_of_Z x)).
Proof.
  intros I C S. destruct (common_double m a x I C) as [L D]. apply (mixed_right m a x); auto.
  unfold comparisons in S. cbn [In] in *. tauto.
Qed.
Lemma answers_iff r P Q : (P <-> Q) -> answers_bool r P -> answers_bool r Q.
Proof. unfold answers_bool. tauto. Qed.
Lemma ordered m a b : common a -> common b ->
  let x := number_value a in let y := number_value b in
  answers_bool (send1 m a "<" b) (below x y)
  /\ answers_bool (send1 m a "<=" b) (below x y \/ same x y)
  /\ answers_bool (send1 m a ">" b) (below y x)
  /\ answers_bool (send1 m a ">=" b) (below y x \/ same x y)
  /\ answers_bool (send1 m a "=" b) (same x y)
  /\ answers_bool (send1 m a "<>" b) (~ same x y)
  /\ answers_bool (send1 m a "~=" b) (~ same x y).
Proof.
  intros Ca Cb x y. subst x y. pose proof scale_pos as S.
  assert (Ka : (exists f, a = VDbl f /\ binary64 f) \/ exists z, int_val a = Some z /\ number_value a = Exactly (z * unit_scale)
    /\ binary64 (float_of_Z z) /\ exactly (float_of_Z z) = Exactly (z * unit_scale)).
  { destruct a as [| | |z|z|f| | |]; try destruct Ca; [right|right|left]; eauto.
    all: exists z; destruct (int_exact z ltac:(lia)) as [B U]; split; [reflexivity|]; split; [reflexivity|]; split; [exact B|exact (units_exactly _ _ U)]. }
  assert (Kb : (exists f, b = VDbl f /\ binary64 f) \/ exists z, int_val b = Some z /\ number_value b = Exactly (z * unit_scale)
    /\ binary64 (float_of_Z z) /\ exactly (float_of_Z z) = Exactly (z * unit_scale)).
  { destruct b as [| | |z|z|f| | |]; try destruct Cb; [right|right|left]; eauto.
    all: exists z; destruct (int_exact z ltac:(lia)) as [B U]; split; [reflexivity|]; split; [reflexivity|]; split; [exact B|exact (units_exactly _ _ U)]. }
  destruct Ka as [(f & -> & Bf)|(x & Ix & Ex & Bx & Fx)], Kb as [(g & -> & Bg)|(y & Iy & Ey & By & Fy)].
  - cbn [number_value]. exact (dbl_order m f g Bf Bg).
  - rewrite Ey, <- Fy. cbn [number_value].
    rewrite !(right_coerced m b y f _ Iy Cb) by (unfold comparisons; cbn [In]; tauto). exact (dbl_order m f _ Bf By).
  - rewrite Ex, <- Fx. cbn [number_value].
    rewrite !(left_coerced m a x g _ Ix Ca Bg) by (unfold comparisons; cbn [In]; tauto). exact (dbl_order m _ g Bx Bg).
  - rewrite Ex, Ey.
    assert (A : below (Exactly (x * unit_scale)) (Exactly (y * unit_scale)) <-> x < y) by (cbn [below]; split; intros H; [apply Z.mul_lt_mono_pos_r in H; lia|apply Z.mul_lt_mono_pos_r; lia]).
    assert (B : below (Exactly (y * unit_scale)) (Exactly (x * unit_scale)) <-> y < x) by (cbn [below]; split; intros H; [apply Z.mul_lt_mono_pos_r in H; lia|apply Z.mul_lt_mono_pos_r; lia]).
    assert (E : same (Exactly (x * unit_scale)) (Exactly (y * unit_scale)) <-> x = y).
    { split; [intros [H _]; injection H as H; apply Z.mul_reg_r in H; lia|intros ->; split; [reflexivity|discriminate]]. }
    split; [|split; [|split; [|split; [|split; [|split]]]]].
    + exact (answers_iff _ _ _ (iff_sym A) (NumProofs.lt_ok m a b x y Ix Iy)).
    + refine (answers_iff _ _ _ _ (NumProofs.le_ok m a b x y Ix Iy)). rewrite A, E. lia.
    + refine (answers_iff _ _ _ _ (NumProofs.gt_ok m a b x y Ix Iy)). rewrite B. lia.
    + refine (answers_iff _ _ _ _ (NumProofs.ge_ok m a b x y Ix Iy)). rewrite B, E. lia.
    + refine (answers_iff _ _ _ _ (NumProofs.eq_ok m a b x y Ix Iy)). rewrite E. lia.
    + refine (answers_iff _ _ _ _ (NumProofs.ne_ok m a b x y Ix Iy)). rewrite E. lia.
    + refine (answers_iff _ _ _ _ (NumProofs.ne2_ok m a b x y Ix Iy)). rewrite E. lia.
Qed.
Lemma below_trans x y z : below x y -> below y z -> below x z.
Proof. destruct x, y, z; cbn [below]; try tauto; lia. Qed.
