(** Theorems about comparisons of numbers of any two classes.  [number_value v] (CmpSpec) is the exact
    value of a number, [common v] says that it is a double or an integer up to 2^53. *)
From Coq Require Import ZArith Bool String List Lia Floats.SpecFloat.
From Verif Require Import Base NumModel NumSpec NumProofs DblSpec DblArith FltSpec FltProps CmpSpec CmpProofs.
Import ListNotations.
Open Scope Z_scope.

(** * C55: comparisons of integers and doubles go by the exact values *)
Theorem C55_comparisons_mixed : forall m a b, common a -> common b ->
  let x := number_value a in let y := number_value b in
  answers_bool (send1 m a "<" b) (below x y)
  /\ answers_bool (send1 m a "<=" b) (below x y \/ same x y)
  /\ answers_bool (send1 m a ">" b) (below y x)
  /\ answers_bool (send1 m a ">=" b) (below y x \/ same x y)
  /\ answers_bool (send1 m a "=" b) (same x y)
  /\ answers_bool (send1 m a "<>" b) (~ same x y)
  /\ answers_bool (send1 m a "~=" b) (~ same x y).
Proof. exact ordered. Qed.
Print Assumptions C55_comparisons_mixed.
(** Beyond 2^53 an integer is rounded before it is compared with a double. *)
Theorem C55_comparisons_mixed_refuted : forall m, exists a b, valid m a /\ is_number b /\
  below (number_value b) (number_value a) /\ send1 m a ">" b = Ok VFalse.
Proof.
  intros m. exists (VInt (2 ^ 53 + 1)), (VDbl (S754_finite false (2 ^ 52) 1)).
  split; [destruct m; vm_compute; repeat split; discriminate|]. split; [exact I|].
  split; [vm_compute; reflexivity|destruct m; vm_compute; reflexivity].
Qed.
Print Assumptions C55_comparisons_mixed_refuted.
(** < is transitive over integers and doubles together. *)
Theorem C55_less_transitive : forall m a b c, common a -> common b -> common c ->
  send1 m a "<" b = Ok VTrue -> send1 m b "<" c = Ok VTrue -> send1 m a "<" c = Ok VTrue.
Proof.
  intros m a b c A B C H1 H2. destruct (ordered m a b A B) as [L1 _]. destruct (ordered m b c B C) as [L2 _]. destruct (ordered m a c A C) as [L3 _].
  destruct L1 as [[_ L1]|[L1 _]]; [|congruence]. destruct L2 as [[_ L2]|[L2 _]]; [|congruence].
  destruct L3 as [[L3 _]|[_ L3]]; [exact L3|]. destruct (L3 (below_trans _ _ _ L1 L2)).
Qed.
Print Assumptions C55_less_transitive.
(** Of two numbers, neither of them NaN, exactly one is less or they are equal. *)
Theorem C55_trichotomy : forall m a b, common a -> common b -> a <> VDbl S754_nan -> b <> VDbl S754_nan ->
  let yes sel := send1 m a sel b = Ok VTrue in let no sel := send1 m a sel b = Ok VFalse in
  (yes "<" /\ no "=" /\ no ">") \/ (no "<" /\ yes "=" /\ no ">") \/ (no "<" /\ no "=" /\ yes ">").
Proof.
  intros m a b A B Na Nb yes no. subst yes no. cbv beta. destruct (ordered m a b A B) as (L & _ & G & _ & E & _).
  assert (Xa : number_value a <> NotANumber) by (destruct a as [| | |z|z|f| | |]; try destruct A; try discriminate; destruct f as [s|[]| |s p e]; try discriminate; congruence).
  assert (Xb : number_value b <> NotANumber) by (destruct b as [| | |z|z|f| | |]; try destruct B; try discriminate; destruct f as [s|[]| |s p e]; try discriminate; congruence).
  assert (T : below (number_value a) (number_value b) \/ same (number_value a) (number_value b) \/ below (number_value b) (number_value a)).
  { unfold same. destruct (number_value a) as [|u| |], (number_value b) as [|v| |]; cbn [below]; try congruence; auto;
      try (right; left; split; [reflexivity|discriminate]).
    destruct (Z.lt_trichotomy u v) as [H|[->|H]]; [auto|right; left; split; [reflexivity|discriminate]|auto]. }
  assert (N1 : ~ (below (number_value a) (number_value b) /\ below (number_value b) (number_value a))).
  { destruct (number_value a), (number_value b); cbn [below]; intros [P Q]; try contradiction; lia. }
  assert (N2 : same (number_value a) (number_value b) -> ~ below (number_value a) (number_value b) /\ ~ below (number_value b) (number_value a)).
  { intros [-> _]. destruct (number_value b); cbn [below]; split; intros P; try contradiction; lia. }
  unfold answers_bool in L, G, E. tauto.
Qed.
Print Assumptions C55_trichotomy.

(** * C08 *)
Theorem C08_equals_transitive_numbers : forall m a b c, common a -> common b -> common c ->
  send1 m a "=" b = Ok VTrue -> send1 m b "=" c = Ok VTrue -> send1 m a "=" c = Ok VTrue.
Proof.
  intros m a b c A B C H1 H2. destruct (ordered m a b A B) as (_ & _ & _ & _ & L1 & _).
  destruct (ordered m b c B C) as (_ & _ & _ & _ & L2 & _). destruct (ordered m a c A C) as (_ & _ & _ & _ & L3 & _).
  destruct L1 as [[_ [L1 N1]]|[L1 _]]; [|congruence]. destruct L2 as [[_ [L2 _]]|[L2 _]]; [|congruence].
  destruct L3 as [[L3 _]|[_ L3]]; [exact L3|]. exfalso. apply L3. split; [congruence|exact N1].
Qed.
Print Assumptions C08_equals_transitive_numbers.
Theorem C08_equals_symmetric_numbers : forall m a b, common a -> common b ->
  send1 m a "=" b = send1 m b "=" a.
Proof.
  intros m a b A B. destruct (ordered m a b A B) as (_ & _ & _ & _ & L1 & _). destruct (ordered m b a B A) as (_ & _ & _ & _ & L2 & _).
  destruct L1 as [[-> [P Q]]|[-> P]], L2 as [[-> [R S]]|[-> R]]; try reflexivity; exfalso.
  - apply R. split; congruence.
  - apply P. split; congruence.
Qed.
Print Assumptions C08_equals_symmetric_numbers.

(** * C75 *)
Lemma finite_double f x : exactly f = Exactly x -> units f = Some x.
Proof. destruct f as [s|[]| |s p e]; cbn [exactly units]; congruence. Qed.
Lemma mixed_doubles m a b x y : common a -> common b -> (exists f, a = VDbl f) \/ (exists f, b = VDbl f) ->
  number_value a = Exactly x -> number_value b = Exactly y ->
  exists f g, binary64 f /\ binary64 g /\ units f = Some x /\ units g = Some y /\
    forall sel, In sel ["+"; "-"; "*"; "//"; "%"]%string -> send1 m a sel b = send1 m (VDbl f) sel (VDbl g).
Proof.
  intros A B D X Y. destruct D as [[f ->]|[g ->]].
  - cbn [number_value] in X. apply finite_double in X. destruct (int_val b) as [z|] eqn:Z.
    + destruct (common_double m b z Z B) as [L E]. destruct (int_exact z L) as [Bz Uz]. exists f, (float_of_Z z).
      assert (y = (z * unit_scale)%Z) by (destruct b; try discriminate Z; cbn [int_val number_value] in *; congruence). subst y.
      repeat (split; [assumption|]). intros sel S. apply (mixed_right m b z); auto. cbn [In] in *. tauto.
    + destruct b as [| | |z|z|g| | |]; try discriminate Z; try destruct B. cbn [number_value] in Y. apply finite_double in Y. exists f, g. auto.
  - cbn [number_value] in Y. apply finite_double in Y. destruct (int_val a) as [z|] eqn:Z.
    + destruct (common_double m a z Z A) as [L E]. destruct (int_exact z L) as [Bz Uz]. exists (float_of_Z z), g.
      assert (x = (z * unit_scale)%Z) by (destruct a; try discriminate Z; cbn [int_val number_value] in *; congruence). subst x.
      repeat (split; [assumption|]). intros sel S. apply (mixed_left m a z); auto. unfold coercing. apply in_or_app. left. cbn [In] in *. tauto.
    + destruct a as [| | |z|z|f| | |]; try discriminate Z; try destruct A. cbn [number_value] in X. apply finite_double in X. exists f, g. auto.
Qed.
(** An integer up to 2^53 and a finite double: the exact result is rounded once, in either order. *)
Theorem C75_mixed : forall m a b x y, common a -> common b -> (exists f, a = VDbl f) \/ (exists f, b = VDbl f) ->
  number_value a = Exactly x -> number_value b = Exactly y ->
  (exists h, send1 m a "+" b = Ok (VDbl h) /\ rounds_to (x + y) 1 h) /\
  (exists h, send1 m a "-" b = Ok (VDbl h) /\ rounds_to (x - y) 1 h) /\
  (exists h, send1 m a "*" b = Ok (VDbl h) /\ rounds_to (x * y) unit_scale h) /\
  (y <> 0 -> exists h, send1 m a "//" b = Ok (VDbl h) /\ rounds_to (Z.sgn y * x * unit_scale) (Z.abs y) h) /\
  (y <> 0 -> exists h k r, send1 m a "%" b = Ok (VDbl h) /\ binary64 h /\ units h = Some r /\ x = k * y + r /\ Z.abs r < Z.abs y).
Proof.
  intros m a b x y A B D X Y. destruct (mixed_doubles m a b x y A B D X Y) as (f & g & Bf & Bg & Uf & Ug & E).
  rewrite !E by (cbn [In]; tauto). clear E.
  destruct (C75_add m f g x y Bf Bg Uf Ug) as (h1 & S1 & R1 & _). destruct (C75_subtract m f g x y Bf Bg Uf Ug) as (h2 & S2 & R2 & _).
  destruct (C75_multiply m f g x y Bf Bg Uf Ug) as (h3 & S3 & R3 & _).
  split; [exists h1; split; [exact S1|exact R1]|]. split; [exists h2; split; [exact S2|exact R2]|]. split; [exists h3; split; [exact S3|exact R3]|].
  split; intros N.
  - destruct (C75_divide m f g x y Bf Bg Uf Ug N) as (h & S & R & _). exists h. split; [exact S|exact R].
  - destruct (C75_remainder m f g x y Bf Bg Uf Ug N) as (h & k & r & S & R1' & R2' & R3' & R4' & _). exists h, k, r. repeat (split; [assumption|]). exact R4'.
Qed.
Print Assumptions C75_mixed.
Example C75_nonvacuous_mixed :
  let half := VDbl (S754_finite false (2 ^ 52) (-53)) in
  common (VInt 3) /\ common half /\ (exists u, number_value half = Exactly u /\ u + u = unit_scale) /\
  send1 Translated (VInt 3) "-" half = Ok (VDbl (S754_finite false 5629499534213120 (-51))) /\
  send1 Hosted half "//" (VInt 2) = Ok (VDbl (S754_finite false (2 ^ 52) (-54))).
Proof.
  cbv zeta. split; [cbn [common]; lia|]. split; [vm_compute; repeat split; try discriminate; left; discriminate|].
  split; [eexists; split; vm_compute; reflexivity|]. split; vm_compute; reflexivity.
Qed.

Example C55_nonvacuous_mixed :
  let two := VDbl (S754_finite false (2 ^ 52) (-51)) in let half := VDbl (S754_finite false (2 ^ 52) (-53)) in
  common two /\ common half /\ common (VInt 2) /\ common (VBig (2 ^ 53)) /\
  send1 Hosted (VInt 2) "=" two = Ok VTrue /\ send1 Hosted two "=" (VBig 2) = Ok VTrue /\ send1 Hosted (VInt 2) "=" (VBig 2) = Ok VTrue /\
  send1 Translated half "<" (VInt 2) = Ok VTrue /\ send1 Translated (VInt 2) "<" (VBig (2 ^ 53)) = Ok VTrue /\
  send1 Translated half "<" (VBig (2 ^ 53)) = Ok VTrue /\ send1 Translated half "<" (VDbl S754_nan) = Ok VFalse.
Proof. vm_compute. repeat split; try discriminate; left; discriminate. Qed.
