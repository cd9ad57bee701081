(** Property theorems about the counting loops: C11 (loops) and C51. *)
From Coq Require Import ZArith Bool String List Floats.SpecFloat Lia.
From Verif Require Import Base NumModel NumSpec NumProofs DblSpec LoopModel LoopSpec LoopProofs.
Import ListNotations.
Open Scope Z_scope.
Open Scope list_scope.

(** * C11.  [blk] is an arbitrary block; [fuel] only has to exceed the number of trips.
    Missing for the full property: integer limits at the very end of the word range
    (see the refutations). *)
Theorem C11_to_do_partial : forall (St : Type) m (blk : value -> St -> res St) a b fuel s,
  valid m (VInt a) -> valid m (VInt b) -> ~ (m = Translated /\ b = 2 ^ 63 - 1) ->
  (Z.to_nat (b - a + 1) < fuel)%nat ->
  bc_to_do m blk fuel (VInt a) (VInt b) s =
  (s' <- for_each blk (progression a 1 (Z.to_nat (b - a + 1))) s ;; Ok (VInt a, s')).
Proof. exact @to_do_int_ok. Qed.
Print Assumptions C11_to_do_partial.

Theorem C11_down_to_do_partial : forall (St : Type) m (blk : value -> St -> res St) a b fuel s,
  valid m (VInt a) -> valid m (VInt b) -> ~ (m = Translated /\ b = - 2 ^ 63) ->
  (Z.to_nat (a - b + 1) < fuel)%nat ->
  bc_down_to_do m blk fuel (VInt a) (VInt b) s =
  (s' <- for_each blk (progression a (-1) (Z.to_nat (a - b + 1))) s ;; Ok (VInt a, s')).
Proof. exact @down_to_do_int_ok. Qed.
Print Assumptions C11_down_to_do_partial.

(** [n] is the number of members of a, a+step, ... that do not exceed b; the first member
    beyond b must be a machine word in the translated VM. *)
Theorem C11_to_by_do_partial : forall (St : Type) m (blk : value -> St -> res St) a b step n fuel s,
  valid m (VInt a) -> 0 < step ->
  (forall k : nat, (k < n)%nat <-> a + Z.of_nat k * step <= b) ->
  word_sized m (a + Z.of_nat n * step) ->
  (n < fuel)%nat ->
  bc_to_by_do m blk fuel (VInt a) (VInt b) (VInt step) s =
  (s' <- for_each blk (progression a step n) s ;; Ok (VInt a, s')).
Proof.
  intros St m blk a b step n fuel s Va Hs Hn Hw Hf.
  assert (E : n = trips a b step).
  { destruct (trips_bounds a b step Hs) as (T1 & T2 & _).
    destruct (Nat.lt_trichotomy n (trips a b step)) as [L|[L|L]]; auto.
    - apply T1 in L. apply Hn in L. lia.
    - apply Hn in L. lia. }
  subst n. exact (to_by_do_int_ok m blk a b step fuel s Va Hs Hw Hf).
Qed.
Print Assumptions C11_to_by_do_partial.

(** Double limits: the visited numbers are the longest prefix of a, a+step, ... for
    which the message <= (>=) to the limit answers true. *)
Theorem C11_to_by_do_double : forall (St : Type) (blk : value -> St -> res St) a step d n fuel s,
  (forall k, (k < n)%nat -> send1 Translated (VInt (a + Z.of_nat k * step)) "<=" (VDbl d) = Ok VTrue) ->
  send1 Translated (VInt (a + Z.of_nat n * step)) "<=" (VDbl d) = Ok VFalse ->
  (forall k, (k <= n)%nat -> word_sized Translated (a + Z.of_nat k * step)) ->
  (n < fuel)%nat ->
  bc_to_by_do Translated blk fuel (VInt a) (VDbl d) (VInt step) s =
  (s' <- for_each blk (progression a step n) s ;; Ok (VInt a, s'))
  /\ (step = 1 -> bc_to_do Translated blk fuel (VInt a) (VDbl d) s =
      (s' <- for_each blk (progression a 1 n) s ;; Ok (VInt a, s'))).
Proof.
  intros St blk a step d n fuel s H1 H2 H3 H4.
  split; [|intros ->; rewrite to_do_by_one];
  exact (to_by_do_double_ok blk a _ d n fuel s H1 H2 H3 H4).
Qed.
Print Assumptions C11_to_by_do_double.

Theorem C11_down_to_do_double : forall (St : Type) (blk : value -> St -> res St) a d n fuel s,
  (forall k, (k < n)%nat -> send1 Translated (VInt (a - Z.of_nat k)) ">=" (VDbl d) = Ok VTrue) ->
  send1 Translated (VInt (a - Z.of_nat n)) ">=" (VDbl d) = Ok VFalse ->
  word_sized Translated a -> word_sized Translated (a - Z.of_nat n) ->
  (n < fuel)%nat ->
  bc_down_to_do Translated blk fuel (VInt a) (VDbl d) s =
  (s' <- for_each blk (progression a (-1) n) s ;; Ok (VInt a, s')).
Proof. exact @down_to_do_double_ok. Qed.
Print Assumptions C11_down_to_do_double.

(** Run by Python, the limit is compared exactly: the visited numbers are the longest prefix of
    a, a+step, ... whose exact value is not above (below) the limit's.  Nothing is visited if the
    limit is not a number. *)
Theorem C11_to_by_do_double_hosted : forall (St : Type) (blk : value -> St -> res St) a step d n fuel s,
  binary64 d ->
  let reached z := below (Exactly (z * unit_scale)) (exactly d) \/ same (Exactly (z * unit_scale)) (exactly d) in
  (forall k, (k < n)%nat -> reached (a + Z.of_nat k * step)) ->
  ~ reached (a + Z.of_nat n * step) ->
  (n < fuel)%nat ->
  bc_to_by_do Hosted blk fuel (VInt a) (VDbl d) (VInt step) s =
  (s' <- for_each blk (progression a step n) s ;; Ok (VInt a, s'))
  /\ (step = 1 -> bc_to_do Hosted blk fuel (VInt a) (VDbl d) s =
      (s' <- for_each blk (progression a 1 n) s ;; Ok (VInt a, s'))).
Proof.
  intros St blk a step d n fuel s Hd R H1 H2 H3.
  split; [|intros ->; rewrite to_do_by_one];
  exact (to_by_do_hosted_ok blk a _ d n fuel s Hd H1 H2 H3).
Qed.
Print Assumptions C11_to_by_do_double_hosted.
Theorem C11_down_to_do_double_hosted : forall (St : Type) (blk : value -> St -> res St) a d n fuel s,
  binary64 d ->
  let reached z := below (exactly d) (Exactly (z * unit_scale)) \/ same (exactly d) (Exactly (z * unit_scale)) in
  (forall k, (k < n)%nat -> reached (a - Z.of_nat k)) ->
  ~ reached (a - Z.of_nat n) ->
  (n < fuel)%nat ->
  bc_down_to_do Hosted blk fuel (VInt a) (VDbl d) s =
  (s' <- for_each blk (progression a (-1) n) s ;; Ok (VInt a, s')).
Proof. exact @down_to_do_hosted_ok. Qed.
Print Assumptions C11_down_to_do_double_hosted.
(** An infinite limit is never passed. *)
Theorem C11_infinite_limit : forall (St : Type) (blk : value -> St -> res St) a fuel s,
  (forall i s, exists s', blk (VInt i) s = Ok s') ->
  bc_to_do Hosted blk fuel (VInt a) (VDbl (S754_infinity false)) s = Err OutOfFuel
  /\ bc_down_to_do Hosted blk fuel (VInt a) (VDbl (S754_infinity true)) s = Err OutOfFuel.
Proof.
  intros St blk a fuel s Hb. unfold bc_to_do, bc_down_to_do, to_do_double, down_to_do_double. cbn [embedded_integer bind].
  assert (F : forall c by_ fuel a s, (forall z, c z = true) -> while_loop Hosted blk c by_ fuel a s = Err OutOfFuel).
  { intros c by_ f. induction f as [|f IH]; intros i t Hc; [reflexivity|]. cbn [while_loop]. rewrite Hc.
    destruct (Hb i t) as [t' E]. rewrite E. cbn [bind]. apply IH. exact Hc. }
  rewrite !F by reflexivity. split; reflexivity.
Qed.
Print Assumptions C11_infinite_limit.
Example C11_nonvacuous_hosted :
  let two_and_a_half := S754_finite false (5 * 2 ^ 50) (-51) in
  let visited (v : value) (l : list value) := Ok (l ++ [v]) in
  binary64 two_and_a_half /\
  (forall k, (k < 2)%nat -> below (Exactly ((1 + Z.of_nat k * 1) * unit_scale)) (exactly two_and_a_half)) /\
  ~ (below (Exactly ((1 + Z.of_nat 2 * 1) * unit_scale)) (exactly two_and_a_half)
     \/ same (Exactly ((1 + Z.of_nat 2 * 1) * unit_scale)) (exactly two_and_a_half)) /\
  bc_to_do Hosted visited 5 (VInt 1) (VDbl two_and_a_half) [] = Ok (VInt 1, [VInt 1; VInt 2]) /\
  bc_down_to_do Hosted visited 5 (VInt 4) (VDbl two_and_a_half) [] = Ok (VInt 4, [VInt 4; VInt 3]).
Proof.
  cbv zeta. split; [cbn; lia|]. split.
  - intros [|[|k]] Hk; [vm_compute; reflexivity|vm_compute; reflexivity|lia].
  - split; [|split; vm_compute; reflexivity].
    intros [H|[H _]]; revert H; vm_compute; congruence.
Qed.

(** With the largest (smallest) word as limit the loop never ends in the translated VM:
    no recursion bound suffices, whatever the start. *)
Theorem C11_to_do_refuted : forall (St : Type) (blk : value -> St -> res St) a fuel s,
  (forall i s, exists s', blk (VInt i) s = Ok s') -> valid Translated (VInt a) ->
  bc_to_do Translated blk fuel (VInt a) (VInt (2 ^ 63 - 1)) s = Err OutOfFuel
  /\ bc_down_to_do Translated blk fuel (VInt a) (VInt (- 2 ^ 63)) s = Err OutOfFuel.
Proof.
  intros St blk a fuel s Hb Va. unfold valid in Va.
  pose proof (up_max_forever blk Hb fuel a s Va) as U.
  pose proof (down_min_forever blk Hb fuel a s Va) as D.
  unfold bc_to_do, bc_down_to_do, to_do_int, down_to_do_int. cbn [embedded_integer bind].
  change (- (1)) with (-1). rewrite U, D. split; reflexivity.
Qed.
Print Assumptions C11_to_do_refuted.

Example C11_loops_nonvacuous :
  let log := fun v s => Ok (s ++ [v]) in
  bc_to_do Translated log 10 (VInt (-1)) (VInt 1) [] = Ok (VInt (-1), [VInt (-1); VInt 0; VInt 1])
  /\ bc_to_by_do Translated log 10 (VInt 0) (VInt 7) (VInt 3) [] = Ok (VInt 0, [VInt 0; VInt 3; VInt 6])
  /\ bc_down_to_do Translated log 10 (VInt 2) (VInt 1) [] = Ok (VInt 2, [VInt 2; VInt 1])
  /\ bc_to_do Translated log 10 (VInt 3) (VInt 2) [] = Ok (VInt 3, [])
  /\ bc_to_do Translated log 10 (VInt 1) (VDbl (S754_finite false (5 * 2 ^ 50) (-51))) [] = Ok (VInt 1, [VInt 1; VInt 2]).
Proof. vm_compute. repeat split. Qed.

(** * C51 *)
(** Missing for the full property: a node specialised on one kind of limit fails on the
    other, see the refutation. *)
Theorem C51_ast_loop_same_kinds_partial :
  forall (St : Type) m (blk : value -> St -> res St) library fuel sel node a limit step s,
  (exists b, limit = VInt b) \/ (exists d, limit = VDbl d) ->
  (sel = ToByDo -> exists z, step = VInt z) ->
  node = LUninitialized
  \/ (node = LIntInt /\ exists b, limit = VInt b) \/ (node = LIntDouble /\ exists d, limit = VDbl d) ->
  exists node',
    ast_loop m blk library fuel sel node (VInt a) limit step s =
    (r <- match sel with
          | ToDo => bc_to_do m blk fuel (VInt a) limit s
          | ToByDo => bc_to_by_do m blk fuel (VInt a) limit step s
          | DownToDo => bc_down_to_do m blk fuel (VInt a) limit s
          end ;; Ok (node', r)).
Proof.
  intros St m blk library fuel sel node a limit step s HL HS Hn.
  exists (specialize sel (VInt a) limit step). apply ast_loop_same.
  - destruct sel, HL as [[b ->]|[d ->]]; try discriminate;
      destruct (HS eq_refl) as [z ->]; discriminate.
  - destruct Hn as [->|[[-> [b ->]]|[-> [d ->]]]]; auto; right;
      destruct sel; try reflexivity; destruct (HS eq_refl) as [z ->]; reflexivity.
Qed.
Print Assumptions C51_ast_loop_same_kinds_partial.

(** Exactly what happens otherwise. *)
Theorem C51_ast_loop_other_kinds_fail :
  forall (St : Type) m (blk : value -> St -> res St) library fuel sel node rcvr limit step s,
  (node = LIntInt \/ node = LIntDouble) -> specialize sel rcvr limit step <> node ->
  ast_loop m blk library fuel sel node rcvr limit step s = Err AttributeError.
Proof. exact @ast_loop_other. Qed.
Print Assumptions C51_ast_loop_other_kinds_fail.

(** The same send executed first with limit 1 and then with limit 2.0: the second
    execution fails although the primitive would run the loop. *)
Theorem C51_ast_loop_refuted : exists node,
  let log := fun v s => Ok (s ++ [v]) in
  let lib := fun r _ _ s => Ok (r, s) in
  ast_loop Translated log lib 10 ToDo LUninitialized (VInt 1) (VInt 1) VNil []
    = Ok (node, (VInt 1, [VInt 1]))
  /\ ast_loop Translated log lib 10 ToDo node (VInt 1) (VDbl (float_of_Z 2)) VNil []
    = Err AttributeError
  /\ bc_to_do Translated log 10 (VInt 1) (VDbl (float_of_Z 2)) [] = Ok (VInt 1, [VInt 1; VInt 2]).
Proof. exists LIntInt. vm_compute. repeat split. Qed.
Print Assumptions C51_ast_loop_refuted.
(** A send first executed with an Integer limit runs every later loop with an Integer limit as the
    primitive does, and fails on a Double limit. *)
Example C51_nonvacuous :
  let log := fun v s => Ok (s ++ [v]) in
  let lib := fun r _ _ s => Ok (r, s) in
  specialize ToDo (VInt 1) (VDbl (float_of_Z 2)) VNil = LIntDouble /\
  ast_loop Translated log lib 10 ToByDo LIntInt (VInt 1) (VInt 6) (VInt 2) [] = Ok (LIntInt, (VInt 1, [VInt 1; VInt 3; VInt 5])) /\
  bc_to_by_do Translated log 10 (VInt 1) (VInt 6) (VInt 2) [] = Ok (VInt 1, [VInt 1; VInt 3; VInt 5]) /\
  ast_loop Translated log lib 10 ToDo LIntDouble (VInt 1) (VDbl (float_of_Z 2)) VNil [] = Ok (LIntDouble, (VInt 1, [VInt 1; VInt 2])) /\
  ast_loop Translated log lib 10 ToDo LIntInt (VInt 1) (VDbl (float_of_Z 2)) VNil [] = Err AttributeError.
Proof. vm_compute. repeat split. Qed.
