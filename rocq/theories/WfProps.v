(** Theorems about the doubles programs compute: the hypotheses of C55 and C75 hold of all of them. *)
From Coq Require Import ZArith Bool String Ascii List Lia Floats.SpecFloat.
From Verif Require Import Base NumModel NumSpec DblSpec FltModel FltSpec FltProps LexModel DecModel CmpSpec CmpProps WfSpec WfProofs.
Import ListNotations.
Open Scope Z_scope.

(** * C75 *)
(** Every double a program computes is a number of the binary64 format. *)
Theorem C75_computed : forall m f, computed m (VDbl f) -> binary64 f.
Proof. intros m f H. exact (wf_computed m _ H f eq_refl). Qed.
Print Assumptions C75_computed.
(** No single send leaves the format, whatever its operands, the message and the answer are. *)
Theorem C75_closed : forall m a sel b f, well_formed a -> well_formed b ->
  send1 m a sel b = Ok (VDbl f) \/ send0 m a sel = Ok (VDbl f) \/ d_sqrt a = Ok (VDbl f) \/
  bc_inc m a = Ok (VDbl f) \/ bc_dec m a = Ok (VDbl f) -> binary64 f.
Proof.
  intros m a sel b f A B [H|[H|[H|H]]].
  - exact (wf_send1 m a sel b _ A B H f eq_refl).
  - exact (wf_send0 m a sel _ H f eq_refl).
  - exact (wf_d_sqrt a _ A H f eq_refl).
  - exact (wf_incs m a _ A H f eq_refl).
Qed.
Print Assumptions C75_closed.
(** So all finite doubles of a program are added, subtracted and multiplied with one rounding, and
    divided if the divisor is not zero. *)
Theorem C75_computed_rounds : forall m f g u v, computed m (VDbl f) -> computed m (VDbl g) ->
  units f = Some u -> units g = Some v ->
  (exists h, send1 m (VDbl f) "+" (VDbl g) = Ok (VDbl h) /\ rounds_to (u + v) 1 h) /\
  (exists h, send1 m (VDbl f) "-" (VDbl g) = Ok (VDbl h) /\ rounds_to (u - v) 1 h) /\
  (exists h, send1 m (VDbl f) "*" (VDbl g) = Ok (VDbl h) /\ rounds_to (u * v) unit_scale h) /\
  (v <> 0 -> exists h, send1 m (VDbl f) "//" (VDbl g) = Ok (VDbl h) /\ rounds_to (Z.sgn v * u * unit_scale) (Z.abs v) h).
Proof.
  intros m f g u v Cf Cg Uf Ug. pose proof (C75_computed m f Cf) as Bf. pose proof (C75_computed m g Cg) as Bg.
  destruct (C75_add m f g u v Bf Bg Uf Ug) as (h1 & S1 & R1 & _). destruct (C75_subtract m f g u v Bf Bg Uf Ug) as (h2 & S2 & R2 & _).
  destruct (C75_multiply m f g u v Bf Bg Uf Ug) as (h3 & S3 & R3 & _).
  split; [exists h1; split; [exact S1|exact R1]|]. split; [exists h2; split; [exact S2|exact R2]|]. split; [exists h3; split; [exact S3|exact R3]|].
  intros N. destruct (C75_divide m f g u v Bf Bg Uf Ug N) as (h & S & R & _). exists h. split; [exact S|exact R].
Qed.
Print Assumptions C75_computed_rounds.

(** * C55 *)
(** Of two doubles of a program, neither of them NaN, exactly one is less or they are equal. *)
Theorem C55_computed_trichotomy : forall m f g, computed m (VDbl f) -> computed m (VDbl g) -> f <> S754_nan -> g <> S754_nan ->
  let yes sel := send1 m (VDbl f) sel (VDbl g) = Ok VTrue in let no sel := send1 m (VDbl f) sel (VDbl g) = Ok VFalse in
  (yes "<" /\ no "=" /\ no ">") \/ (no "<" /\ yes "=" /\ no ">") \/ (no "<" /\ no "=" /\ yes ">").
Proof.
  intros m f g Cf Cg Nf Ng. apply (C55_trichotomy m (VDbl f) (VDbl g) (C75_computed m f Cf) (C75_computed m g Cg)); congruence.
Qed.
Print Assumptions C55_computed_trichotomy.

(** 0.5 sqrt + (1 // 3) is computed, and is a finite double. *)
Example C75_nonvacuous_computed : exists f u, computed Translated (VDbl f) /\ units f = Some u /\ 0 < u /\ f <> S754_nan.
Proof.
  do 2 eexists. split; [|split; [|split]].
  - refine (computed_binary Translated (VDbl (S754_finite false 6369051672525773 (-53))) "+" (VDbl (S754_finite false 6004799503160661 (-54))) _ _ _ _).
    + apply (computed_sqrt Translated (VDbl (S754_finite false (2 ^ 52) (-53)))); [|vm_compute; reflexivity].
      apply (computed_literal Translated false ["0"; "."; "5"]%char). vm_compute. reflexivity.
    + apply (computed_binary Translated (VInt 1) "//" (VInt 3)); [constructor; discriminate..|vm_compute; reflexivity].
    + vm_compute. reflexivity.
  - vm_compute. reflexivity.
  - vm_compute. reflexivity.
  - discriminate.
Qed.
