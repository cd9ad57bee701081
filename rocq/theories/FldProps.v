(** C19-C21: object fields. *)
From Coq Require Import ZArith Bool String List Lia Floats.SpecFloat.
From Verif Require Import Base NumModel ArrModel ArrSpec ArrProofs FldModel FldSpec FldProofs.
Import ListNotations.
Open Scope Z_scope.
Open Scope list_scope.

(** The number of objects a history creates. *)
Definition objects_created (ops : list fop) : nat :=
  length (filter (fun op => match op with FNew => true | _ => false end) ops).

Lemma created_length m n ops : forall A, length (fspec_run m n A ops) = (length A + objects_created ops)%nat.
Proof.
  induction ops as [|op ops IH]; intros A; cbn [fspec_run]; [unfold objects_created; cbn; lia|].
  rewrite IH, fspec_length. unfold objects_created. destruct op; cbn; lia.
Qed.

(** * C19 *)
(** Missing for the full property: more than 32 fields holding Integers or Doubles, see
    the refutation. *)
Theorem C19_field_reads_last_write_partial : forall m n fuel ops w k i,
  (2 <= fuel)%nat -> fvalid_history n 0 ops -> at_most_32_numeric_fields ops ->
  frun m fuel (new_world n) ops = Ok w ->
  (k < objects_created ops)%nat -> (i < n)%nat ->
  w_get w k i = Ok (field (fspec_run m n [] ops) k i).
Proof.
  intros m n fuel ops w k i Hf Hv (numeric & Hlen & Hn) E Hk Hi.
  destruct fuel as [|[|f]]; try lia.
  pose proof (frun_inv numeric n m f ops _ [] w (winv_empty numeric n) Hv Hn E) as W.
  destruct (winv_read _ _ _ _ k i W) as [R|[_ B]]; [rewrite created_length; exact Hk|exact Hi|exact R|lia].
Qed.
Print Assumptions C19_field_reads_last_write_partial.

(** With any number of numeric fields, a read answers the last value written or nil:
    never a stale or foreign value. *)
Theorem C19_never_a_wrong_value : forall m n fuel ops w k i,
  (2 <= fuel)%nat -> fvalid_history n 0 ops ->
  frun m fuel (new_world n) ops = Ok w ->
  (k < objects_created ops)%nat -> (i < n)%nat ->
  w_get w k i = Ok (field (fspec_run m n [] ops) k i) \/ (w_get w k i = Ok VNil /\ (32 < n)%nat).
Proof.
  intros m n fuel ops w k i Hf Hv E Hk Hi. destruct fuel as [|[|f]]; try lia.
  pose proof (valid_fields n ops 0 Hv) as Hn.
  pose proof (frun_inv (seq 0 n) n m f ops _ [] w (winv_empty _ n) Hv Hn E) as W.
  destruct (winv_read _ _ _ _ k i W) as [R|[R B]]; [rewrite created_length; exact Hk|exact Hi|auto|].
  rewrite seq_length in B. auto.
Qed.
Print Assumptions C19_never_a_wrong_value.

(** 33 Integer fields: the last one reads nil right after being written. *)
Theorem C19_field_reads_refuted :
  let ops := FNew :: map (fun i => FSet 0 i (VInt (Z.of_nat i))) (seq 0 33) in
  fvalid_history 33 0 ops
  /\ (w <- frun Translated 2 (new_world 33) ops ;; w_get w 0 32) = Ok VNil
  /\ field (fspec_run Translated 33 [] ops) 0 32 = VInt 32.
Proof.
  intros ops. split; [|split; vm_compute; reflexivity].
  assert (H : forall k i, (i + k <= 33)%nat -> fvalid_history 33 1 (map (fun i => FSet 0 i (VInt (Z.of_nat i))) (seq i k))).
  { induction k as [|k IH]; intros i Hi; cbn [seq map fvalid_history fvalid]; [exact I|].
    split; [lia|]. apply IH. lia. }
  split; [exact I|]. apply H. lia.
Qed.
Print Assumptions C19_field_reads_refuted.

Definition fields_demo : list fop :=
  [FNew; FNew; FSet 0 0 (VInt 1); FSet 1 0 (VInt 7); FSet 1 1 (VStr "a"); FSet 0 0 (VStr "b");
   FSend 1; FInc 1 0; FSet 1 2 (VDbl (S754_zero false)); FSet 1 2 VNil; FSet 0 1 VTrue].
Example C19_nonvacuous : exists w,
  fvalid_history 3 0 fields_demo /\ at_most_32_numeric_fields fields_demo
  /\ frun Translated 2 (new_world 3) fields_demo = Ok w
  /\ map (fun i => w_get w 0 i) [0; 1; 2]%nat = [Ok (VStr "b"); Ok VTrue; Ok VNil]
  /\ map (fun i => w_get w 1 i) [0; 1; 2]%nat = [Ok (VInt 8); Ok (VStr "a"); Ok VNil].
Proof.
  eexists. split; [cbn; repeat split; lia|]. split.
  - exists [0; 2]%nat. split; [cbn; lia|]. intros k i v H Hs. cbn in H.
    repeat (destruct H as [H|H]; [try discriminate; injection H as <- <- <-; cbn in *; auto; contradiction|]).
    contradiction.
  - split; [vm_compute; reflexivity|]. split; reflexivity.
Qed.

(** * C20 *)
(** Full property: every write succeeds.  Proved: the only possible failure, and when it
    can occur: the object reads nil in that field, the field has been assigned a value of
    another kind elsewhere in the history. *)
Theorem C20_only_failure_partial : forall m n fuel ops w k i v e,
  (2 <= fuel)%nat -> fvalid_history n 0 ops -> frun m fuel (new_world n) ops = Ok w ->
  (k < objects_created ops)%nat -> (i < n)%nat ->
  w_set fuel w k i v = Err e ->
  e = AssertionError /\ w_get w k i = Ok VNil /\ v <> VNil
  /\ exists v', assigned ops i v' /\ v' <> VNil /\ ~ same_kind v v'.
Proof.
  intros m n fuel ops w k i v e Hf Hv E Hk Hi Ee. destruct fuel as [|[|f]]; try lia.
  pose proof (valid_fields n ops 0 Hv) as Hn.
  pose proof (frun_inv (seq 0 n) n m f ops _ [] w (winv_empty _ n) Hv Hn E) as W.
  pose proof (frun_kinds n m f ops _ _ [] w (winv_empty _ n) Hv (kinds_empty n) E) as K.
  destruct (w_set_failure _ _ f _ _ k i v e _ W ltac:(rewrite created_length; exact Hk) Hi K Ee)
    as (A & B & C & v' & [[]|D] & F). eauto 10.
Qed.
Print Assumptions C20_only_failure_partial.

(** Hence: if a field only ever receives one kind of value, writes to it succeed. *)
Theorem C20_write_one_kind : forall m n fuel ops w k i v,
  (2 <= fuel)%nat -> fvalid_history n 0 ops -> frun m fuel (new_world n) ops = Ok w ->
  (k < objects_created ops)%nat -> (i < n)%nat ->
  (forall v', assigned ops i v' -> v' <> VNil -> same_kind v v') ->
  exists w', w_set fuel w k i v = Ok w'.
Proof.
  intros m n fuel ops w k i v Hf Hv E Hk Hi H.
  destruct (w_set fuel w k i v) as [w'|e] eqn:Ew; [eauto|].
  destruct (C20_only_failure_partial m n fuel ops w k i v e Hf Hv E Hk Hi Ew) as (_ & _ & _ & v' & A & B & C).
  exfalso. apply C. auto.
Qed.
Print Assumptions C20_write_one_kind.

(** An object that has just received a message accepts every write; receiving a message
    never fails for reasons of storage and leaves every field as it was. *)
Theorem C20_write_after_message : forall m n fuel ops w k i v,
  (2 <= fuel)%nat -> fvalid_history n 0 ops -> frun m fuel (new_world n) ops = Ok w ->
  (k < objects_created ops)%nat -> (i < n)%nat ->
  exists w1 w2, w_send fuel w k = Ok w1 /\ w_set fuel w1 k i v = Ok w2.
Proof.
  intros m n fuel ops w k i v Hf Hv E Hk Hi. destruct fuel as [|[|f]]; try lia.
  pose proof (valid_fields n ops 0 Hv) as Hn.
  pose proof (frun_inv (seq 0 n) n m f ops _ [] w (winv_empty _ n) Hv Hn E) as W.
  apply (w_set_after_send _ n f (S f) w _ k i v W); [rewrite created_length; exact Hk|exact Hi].
Qed.
Print Assumptions C20_write_after_message.

(** Two fresh objects; one gets an Integer, then the other (which received no message in
    between) a String in the same field. *)
Theorem C20_write_refuted :
  (w <- frun Translated 2 (new_world 1) [FNew; FNew; FSet 0 0 (VInt 1)] ;; Ok (w_set 2 w 1 0 (VStr "a")))
  = Ok (Err AssertionError).
Proof. vm_compute. reflexivity. Qed.
Print Assumptions C20_write_refuted.

Example C20_nonvacuous :
  fvalid_history 1 0 [FNew; FNew; FSet 0 0 (VInt 1)]
  /\ (w <- frun Translated 2 (new_world 1) [FNew; FNew; FSet 0 0 (VInt 1)] ;;
      w1 <- w_send 2 w 1 ;; w2 <- w_set 2 w1 1 0 (VStr "a") ;;
      a <- w_get w2 1 0 ;; b <- w_get w2 0 0 ;; Ok (a, b)) = Ok (VStr "a", VInt 1).
Proof. split; [cbn; repeat split; lia|vm_compute; reflexivity]. Qed.

(** * C21 *)
(** On every state: an increment that answers has exactly the result and the effect of
    reading, adding one and writing. *)
Theorem C21_increment_is_read_add_write_partial : forall m fuel w k i r w',
  (1 <= fuel)%nat -> w_inc m w k i = Ok (r, w') ->
  exists v, w_get w k i = Ok v /\ prim_add m v (VInt 1) = Ok r /\ w_set fuel w k i r = Ok w'.
Proof.
  intros m fuel w k i r w' Hf E. destruct fuel as [|f]; [lia|]. exact (w_inc_set m w k i r w' f E).
Qed.
Print Assumptions C21_increment_is_read_add_write_partial.

(** And it answers for every number except the largest Integer. *)
Theorem C21_increment_answers_partial : forall m n fuel ops w k i v,
  (2 <= fuel)%nat -> fvalid_history n 0 ops -> frun m fuel (new_world n) ops = Ok w ->
  (k < objects_created ops)%nat -> (i < n)%nat -> w_get w k i = Ok v ->
  (exists z, v = VInt z /\ (m = Translated -> - 2 ^ 63 <= z < 2 ^ 63 - 1))
  \/ (exists z, v = VBig z) \/ (exists d, v = VDbl d) ->
  exists r w', w_inc m w k i = Ok (r, w').
Proof.
  intros m n fuel ops w k i v Hf Hv E Hk Hi Hg Hn'. destruct fuel as [|[|f]]; try lia.
  pose proof (valid_fields n ops 0 Hv) as Hn.
  pose proof (frun_inv (seq 0 n) n m f ops _ [] w (winv_empty _ n) Hv Hn E) as W.
  eapply w_inc_ok; eauto. rewrite created_length; exact Hk.
Qed.
Print Assumptions C21_increment_answers_partial.

(** The largest Integer: read, add, write stores 2^63 as a large integer; the in-place
    increment fails. *)
Theorem C21_increment_refuted :
  let w := frun Translated 2 (new_world 1) [FNew; FSet 0 0 (VInt (2 ^ 63 - 1))] in
  (w' <- w ;; w_inc Translated w' 0 0) = Err NotImplementedErr
  /\ prim_add Translated (VInt (2 ^ 63 - 1)) (VInt 1) = Ok (VBig (2 ^ 63))
  /\ (w' <- w ;; w2 <- w_set 2 w' 0 0 (VBig (2 ^ 63)) ;; w_get w2 0 0) = Ok (VBig (2 ^ 63)).
Proof. split; [|split]; vm_compute; reflexivity. Qed.
Print Assumptions C21_increment_refuted.

Example C21_nonvacuous :
  (w <- frun Translated 2 (new_world 2) [FNew; FSet 0 1 (VInt 41)] ;;
   p <- w_inc Translated w 0 1 ;; v <- w_get (snd p) 0 1 ;; Ok (fst p, v)) = Ok (VInt 42, VInt 42).
Proof. vm_compute. reflexivity. Qed.
