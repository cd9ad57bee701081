(** Proofs about the counting loops. *)
From Coq Require Import ZArith Bool String List Lia Floats.SpecFloat.
From Verif Require Import Base NumModel NumSpec NumProofs DblSpec LoopModel LoopSpec.
Import ListNotations.
Open Scope Z_scope.
Open Scope list_scope.

Lemma unchecked_id m z : word_sized m z -> unchecked m z = z.
Proof. destruct m; simpl; auto. apply wrap_word_id. Qed.

Lemma progression_cons a step n :
  progression a step (S n) = a :: progression (a + step) step n.
Proof.
  unfold progression. simpl. f_equal; [lia|].
  rewrite <- seq_shift, map_map. apply map_ext. intros k. lia.
Qed.

Lemma loop_runs {St} m (blk : value -> St -> res St) cond by_ n : forall a fuel s,
  (forall k, (k < n)%nat -> cond (a + Z.of_nat k * by_) = true) ->
  cond (a + Z.of_nat n * by_) = false ->
  (forall k, (k <= n)%nat -> word_sized m (a + Z.of_nat k * by_)) ->
  (n < fuel)%nat ->
  while_loop m blk cond by_ fuel a s = for_each blk (progression a by_ n) s.
Proof.
  induction n; intros a fuel s Hc Hn Hw Hf; (destruct fuel; [lia|]); cbn [while_loop].
  - replace (a + Z.of_nat 0 * by_) with a in Hn by lia. rewrite Hn. auto.
  - assert (C : cond a = true).
    { specialize (Hc O ltac:(lia)). replace (a + Z.of_nat 0 * by_) with a in Hc by lia. auto. }
    rewrite C, progression_cons. simpl.
    destruct (blk (VInt a) s) as [s'|]; simpl; auto.
    rewrite unchecked_id.
    + apply IHn; try lia.
      * intros k Hk. specialize (Hc (S k) ltac:(lia)).
        replace (a + by_ + Z.of_nat k * by_) with (a + Z.of_nat (S k) * by_) by lia. auto.
      * replace (a + by_ + Z.of_nat n * by_) with (a + Z.of_nat (S n) * by_) by lia. auto.
      * intros k Hk. specialize (Hw (S k) ltac:(lia)).
        replace (a + by_ + Z.of_nat k * by_) with (a + Z.of_nat (S k) * by_) by lia. auto.
    + specialize (Hw 1%nat ltac:(lia)). replace (a + Z.of_nat 1 * by_) with (a + by_) in Hw by lia. auto.
Qed.

(** The number of steps from [a] to [b]. *)
Definition trips (a b step : Z) : nat :=
  if a <=? b then Z.to_nat ((b - a) / step + 1) else O.

Lemma trips_bounds a b step : 0 < step ->
  (forall k, (k < trips a b step)%nat -> a + Z.of_nat k * step <= b)
  /\ b < a + Z.of_nat (trips a b step) * step
  /\ (a <= b -> a + Z.of_nat (trips a b step) * step <= b + step).
Proof.
  intros Hs. unfold trips. destruct (Z.leb_spec a b).
  - pose proof (Z.div_mod (b - a) step ltac:(lia)) as D.
    pose proof (Z.mod_pos_bound (b - a) step Hs) as M.
    assert (Q : 0 <= (b - a) / step) by (apply Z.div_pos; lia).
    rewrite Z2Nat.id by lia. repeat split; try nia.
  - repeat split; intros; lia.
Qed.

Lemma word_between m x y z : word_sized m x -> word_sized m y -> x <= z <= y -> word_sized m z.
Proof. destruct m; simpl; lia. Qed.

Lemma up_int {St} m (blk : value -> St -> res St) a b step fuel s :
  0 < step -> word_sized m a -> word_sized m (a + Z.of_nat (trips a b step) * step) ->
  (trips a b step < fuel)%nat ->
  while_loop m blk (fun i => i <=? b) step fuel a s
  = for_each blk (progression a step (trips a b step)) s.
Proof.
  intros Hs Ha Hl Hf. destruct (trips_bounds a b step Hs) as (T1 & T2 & T3).
  apply loop_runs; auto.
  - intros k Hk. apply Z.leb_le. auto.
  - apply Z.leb_gt. auto.
  - intros k Hk. eapply word_between; [exact Ha|exact Hl|]. nia.
Qed.

Lemma down_int {St} m (blk : value -> St -> res St) a b fuel s :
  word_sized m a -> (b <= a -> word_sized m (b - 1)) ->
  (Z.to_nat (a - b + 1) < fuel)%nat ->
  while_loop m blk (fun i => b <=? i) (-1) fuel a s
  = for_each blk (progression a (-1) (Z.to_nat (a - b + 1))) s.
Proof.
  intros Ha Hl Hf. apply loop_runs; auto.
  - intros k Hk. apply Z.leb_le. lia.
  - apply Z.leb_gt. lia.
  - intros k Hk. destruct (Z.leb_spec b a).
    + eapply word_between; [apply Hl; auto|exact Ha|]. lia.
    + assert (k = O) by lia. subst. replace (a + Z.of_nat 0 * -1) with a by lia. auto.
Qed.

(** A limit of the largest word: the loop variable wraps around. *)
Lemma up_max_forever {St} (blk : value -> St -> res St) :
  (forall i s, exists s', blk (VInt i) s = Ok s') ->
  forall fuel a s, - 2 ^ 63 <= a < 2 ^ 63 ->
    while_loop Translated blk (fun i => i <=? 2 ^ 63 - 1) 1 fuel a s = Err OutOfFuel.
Proof.
  intros Hb. induction fuel; intros a s Ha; cbn [while_loop]; auto.
  assert (C : (a <=? 2 ^ 63 - 1) = true) by (apply Z.leb_le; lia). rewrite C.
  destruct (Hb a s) as (s' & ->). cbn [bind]. apply IHfuel.
  cbn [unchecked]. apply wrap_word_range.
Qed.
Lemma down_min_forever {St} (blk : value -> St -> res St) :
  (forall i s, exists s', blk (VInt i) s = Ok s') ->
  forall fuel a s, - 2 ^ 63 <= a < 2 ^ 63 ->
    while_loop Translated blk (fun i => - 2 ^ 63 <=? i) (-1) fuel a s = Err OutOfFuel.
Proof.
  intros Hb. induction fuel; intros a s Ha; cbn [while_loop]; auto.
  assert (C : (- 2 ^ 63 <=? a) = true) by (apply Z.leb_le; lia). rewrite C.
  destruct (Hb a s) as (s' & ->). cbn [bind]. apply IHfuel.
  cbn [unchecked]. apply wrap_word_range.
Qed.

Lemma trips_one a b : trips a b 1 = Z.to_nat (b - a + 1).
Proof.
  unfold trips. rewrite Z.div_1_r. destruct (Z.leb_spec a b); auto. lia.
Qed.

(** * primitives *)
Lemma to_do_int_ok {St} m (blk : value -> St -> res St) a b fuel s :
  valid m (VInt a) -> valid m (VInt b) -> ~ (m = Translated /\ b = 2 ^ 63 - 1) ->
  (Z.to_nat (b - a + 1) < fuel)%nat ->
  bc_to_do m blk fuel (VInt a) (VInt b) s =
  (s' <- for_each blk (progression a 1 (Z.to_nat (b - a + 1))) s ;; Ok (VInt a, s')).
Proof.
  intros Va Vb Hm Hf. unfold bc_to_do, to_do_int. cbn [embedded_integer bind].
  rewrite <- trips_one in *. rewrite up_int; auto; try lia.
  - destruct (trips_bounds a b 1 ltac:(lia)) as (T1 & T2 & T3).
    destruct m; auto. unfold word_sized, valid in *.
    assert (b <> 2 ^ 63 - 1) by (intros ->; apply Hm; auto).
    revert T3 T2. unfold trips. destruct (Z.leb_spec a b); lia.
Qed.

Lemma to_by_do_int_ok {St} m (blk : value -> St -> res St) a b step fuel s :
  valid m (VInt a) -> 0 < step ->
  word_sized m (a + Z.of_nat (trips a b step) * step) ->
  (trips a b step < fuel)%nat ->
  bc_to_by_do m blk fuel (VInt a) (VInt b) (VInt step) s =
  (s' <- for_each blk (progression a step (trips a b step)) s ;; Ok (VInt a, s')).
Proof.
  intros Va Hs Hw Hf. unfold bc_to_by_do, to_do_int. cbn [embedded_integer bind].
  rewrite up_int; auto; destruct m; simpl in *; auto.
Qed.

Lemma down_to_do_int_ok {St} m (blk : value -> St -> res St) a b fuel s :
  valid m (VInt a) -> valid m (VInt b) -> ~ (m = Translated /\ b = - 2 ^ 63) ->
  (Z.to_nat (a - b + 1) < fuel)%nat ->
  bc_down_to_do m blk fuel (VInt a) (VInt b) s =
  (s' <- for_each blk (progression a (-1) (Z.to_nat (a - b + 1))) s ;; Ok (VInt a, s')).
Proof.
  intros Va Vb Hm Hf. unfold bc_down_to_do, down_to_do_int. cbn [embedded_integer bind].
  change (- (1)) with (-1). rewrite down_int; auto; destruct m; auto.
  unfold word_sized, valid in *. intros.
  assert (b <> - 2 ^ 63) by (intros ->; apply Hm; auto). lia.
Qed.

(** Double limits, in terms of the messages <= and >=. *)
Lemma le_float_msg i d b : send1 Translated (VInt i) "<=" (VDbl d) = Ok (som_bool b) <->
  int_le_float Translated i d = b.
Proof.
  change (send1 Translated (VInt i) "<=" (VDbl d)) with (Ok (som_bool (fle (float_of_Z i) d))).
  cbn [int_le_float]. destruct (fle (float_of_Z i) d), b; cbn; split; congruence.
Qed.
Lemma ge_float_msg i d b : send1 Translated (VInt i) ">=" (VDbl d) = Ok (som_bool b) <->
  int_ge_float Translated i d = b.
Proof.
  change (send1 Translated (VInt i) ">=" (VDbl d)) with (Ok (som_bool (fle d (float_of_Z i)))).
  cbn [int_ge_float]. destruct (fle d (float_of_Z i)), b; cbn; split; congruence.
Qed.

Lemma to_by_do_double_ok {St} (blk : value -> St -> res St) a step d n fuel s :
  (forall k, (k < n)%nat -> send1 Translated (VInt (a + Z.of_nat k * step)) "<=" (VDbl d) = Ok VTrue) ->
  send1 Translated (VInt (a + Z.of_nat n * step)) "<=" (VDbl d) = Ok VFalse ->
  (forall k, (k <= n)%nat -> word_sized Translated (a + Z.of_nat k * step)) ->
  (n < fuel)%nat ->
  bc_to_by_do Translated blk fuel (VInt a) (VDbl d) (VInt step) s =
  (s' <- for_each blk (progression a step n) s ;; Ok (VInt a, s')).
Proof.
  intros H1 H2 H3 H4. unfold bc_to_by_do, to_do_double. cbn [embedded_integer bind].
  rewrite (loop_runs _ _ _ _ n); auto.
  - intros k Hk. apply (le_float_msg _ _ true). apply H1; auto.
  - apply (le_float_msg _ _ false); auto.
Qed.

Lemma to_do_by_one {St} m (blk : value -> St -> res St) fuel a limit s :
  bc_to_do m blk fuel a limit s = bc_to_by_do m blk fuel a limit (VInt 1) s.
Proof. unfold bc_to_do, bc_to_by_do. destruct a; auto. Qed.

Lemma down_to_do_double_ok {St} (blk : value -> St -> res St) a d n fuel s :
  (forall k, (k < n)%nat -> send1 Translated (VInt (a - Z.of_nat k)) ">=" (VDbl d) = Ok VTrue) ->
  send1 Translated (VInt (a - Z.of_nat n)) ">=" (VDbl d) = Ok VFalse ->
  word_sized Translated a -> word_sized Translated (a - Z.of_nat n) ->
  (n < fuel)%nat ->
  bc_down_to_do Translated blk fuel (VInt a) (VDbl d) s =
  (s' <- for_each blk (progression a (-1) n) s ;; Ok (VInt a, s')).
Proof.
  intros H1 H2 H3 H4 H5. unfold bc_down_to_do, down_to_do_double. cbn [embedded_integer bind].
  change (- (1)) with (-1). rewrite (loop_runs _ _ _ _ n); auto.
  - intros k Hk. apply (ge_float_msg _ _ true).
    replace (a + Z.of_nat k * -1) with (a - Z.of_nat k) by lia. apply H1; auto.
  - apply (ge_float_msg _ _ false). replace (a + Z.of_nat n * -1) with (a - Z.of_nat n) by lia. auto.
  - intros k Hk. unfold word_sized in *. lia.
Qed.

(** * limits compared exactly *)
Lemma scale_split e : -1074 <= e -> e < 0 -> unit_scale = 2 ^ (- e) * 2 ^ (e + 1074).
Proof. intros H1 H2. unfold unit_scale. rewrite <- Z.pow_add_r by lia. f_equal. lia. Qed.
Lemma exact_le_ok z d : binary64 d ->
  exact_le z d = true <-> (below (Exactly (z * unit_scale)) (exactly d) \/ same (Exactly (z * unit_scale)) (exactly d)).
Proof.
  intros Hd. assert (S : 0 < unit_scale) by (apply Z.pow_pos_nonneg; lia).
  assert (Q : forall u, (below (Exactly (z * unit_scale)) (Exactly u) \/ same (Exactly (z * unit_scale)) (Exactly u)) <-> z * unit_scale <= u).
  { intros u. cbn [below]. unfold same. split.
    - intros [H|[H _]]; [lia|]. injection H. lia.
    - intros H. destruct (Z.eq_dec (z * unit_scale) u) as [->|N]; [right; split; [reflexivity|discriminate]|left; lia]. }
  destruct d as [s|s| |s m e].
  - change (exactly (S754_zero s)) with (Exactly 0). rewrite Q. cbn [exact_le]. rewrite Z.leb_le. nia.
  - destruct s; cbn [exact_le exactly negb below]; split; auto; try discriminate.
    unfold same. intros [H|[H _]]; [contradiction|discriminate].
  - cbn [exact_le exactly below units]. split; [discriminate|]. unfold same. intros [H|[H _]]; [contradiction|discriminate].
  - change (exactly (S754_finite s m e)) with (Exactly ((if s then -1 else 1) * Zpos m * 2 ^ (e + 1074))). rewrite Q.
    cbn [exact_le]. destruct Hd as (_ & B & _).
    assert (C : forall p, cond_Zopp s p = (if s then -1 else 1) * p) by (intros p; destruct s; unfold cond_Zopp; lia).
    destruct (Z.leb_spec 0 e) as [L|L]; rewrite C, Z.leb_le.
    + replace (2 ^ (e + 1074)) with (2 ^ e * unit_scale) by (unfold unit_scale; rewrite <- Z.pow_add_r by lia; f_equal; lia).
      rewrite !Z.mul_assoc. rewrite <- Z.mul_le_mono_pos_r by exact S. reflexivity.
    + rewrite (scale_split e) by lia. assert (P : 0 < 2 ^ (e + 1074)) by (apply Z.pow_pos_nonneg; lia).
      rewrite Z.mul_assoc. rewrite <- Z.mul_le_mono_pos_r by exact P. reflexivity.
Qed.
Lemma exact_ge_ok z d : binary64 d ->
  exact_ge z d = true <-> (below (exactly d) (Exactly (z * unit_scale)) \/ same (exactly d) (Exactly (z * unit_scale))).
Proof.
  intros Hd. assert (S : 0 < unit_scale) by (apply Z.pow_pos_nonneg; lia).
  assert (Q : forall u, (below (Exactly u) (Exactly (z * unit_scale)) \/ same (Exactly u) (Exactly (z * unit_scale))) <-> u <= z * unit_scale).
  { intros u. cbn [below]. unfold same. split.
    - intros [H|[H _]]; [lia|]. injection H. lia.
    - intros H. destruct (Z.eq_dec u (z * unit_scale)) as [->|N]; [right; split; [reflexivity|discriminate]|left; lia]. }
  destruct d as [s|s| |s m e].
  - change (exactly (S754_zero s)) with (Exactly 0). rewrite Q. cbn [exact_ge]. rewrite Z.leb_le. nia.
  - destruct s; cbn [exact_ge exactly negb below]; split; auto; try discriminate.
    unfold same. intros [H|[H _]]; [contradiction|discriminate].
  - cbn [exact_ge exactly below units]. split; [discriminate|]. unfold same. intros [H|[H _]]; [contradiction|discriminate].
  - change (exactly (S754_finite s m e)) with (Exactly ((if s then -1 else 1) * Zpos m * 2 ^ (e + 1074))). rewrite Q.
    cbn [exact_ge]. destruct Hd as (_ & B & _).
    assert (C : forall p, cond_Zopp s p = (if s then -1 else 1) * p) by (intros p; destruct s; unfold cond_Zopp; lia).
    destruct (Z.leb_spec 0 e) as [L|L]; rewrite C, Z.leb_le.
    + replace (2 ^ (e + 1074)) with (2 ^ e * unit_scale) by (unfold unit_scale; rewrite <- Z.pow_add_r by lia; f_equal; lia).
      rewrite !Z.mul_assoc. rewrite <- Z.mul_le_mono_pos_r by exact S. reflexivity.
    + rewrite (scale_split e) by lia. assert (P : 0 < 2 ^ (e + 1074)) by (apply Z.pow_pos_nonneg; lia).
      rewrite Z.mul_assoc. rewrite <- Z.mul_le_mono_pos_r by exact P. reflexivity.
Qed.
Lemma to_by_do_hosted_ok {St} (blk : value -> St -> res St) a step d n fuel s :
  binary64 d ->
  let reached z := below (Exactly (z * unit_scale)) (exactly d) \/ same (Exactly (z * unit_scale)) (exactly d) in
  (forall k, (k < n)%nat -> reached (a + Z.of_nat k * step)) ->
  ~ reached (a + Z.of_nat n * step) ->
  (n < fuel)%nat ->
  bc_to_by_do Hosted blk fuel (VInt a) (VDbl d) (VInt step) s =
  (s' <- for_each blk (progression a step n) s ;; Ok (VInt a, s')).
Proof.
  intros Hd R H1 H2 H4. unfold bc_to_by_do, to_do_double. cbn [embedded_integer bind].
  rewrite (loop_runs _ _ _ _ n); auto.
  - intros k Hk. apply exact_le_ok; auto. apply H1; auto.
  - destruct (int_le_float Hosted (a + Z.of_nat n * step) d) eqn:E; [|reflexivity].
    exfalso. apply H2. apply exact_le_ok; auto.
  - intros k Hk. exact I.
Qed.
Lemma down_to_do_hosted_ok {St} (blk : value -> St -> res St) a d n fuel s :
  binary64 d ->
  let reached z := below (exactly d) (Exactly (z * unit_scale)) \/ same (exactly d) (Exactly (z * unit_scale)) in
  (forall k, (k < n)%nat -> reached (a - Z.of_nat k)) ->
  ~ reached (a - Z.of_nat n) ->
  (n < fuel)%nat ->
  bc_down_to_do Hosted blk fuel (VInt a) (VDbl d) s =
  (s' <- for_each blk (progression a (-1) n) s ;; Ok (VInt a, s')).
Proof.
  intros Hd R H1 H2 H4. unfold bc_down_to_do, down_to_do_double. cbn [embedded_integer bind].
  change (- (1)) with (-1). rewrite (loop_runs _ _ _ _ n); auto.
  - intros k Hk. apply exact_ge_ok; auto. replace (a + Z.of_nat k * -1) with (a - Z.of_nat k) by lia. apply H1; auto.
  - destruct (int_ge_float Hosted (a + Z.of_nat n * -1) d) eqn:E; [|reflexivity].
    exfalso. apply H2. apply exact_ge_ok; auto. replace (a - Z.of_nat n) with (a + Z.of_nat n * -1) by lia. exact E.
  - intros k Hk. exact I.
Qed.

(** * the nodes of the AST interpreter *)
Definition bc_loop {St} m (blk : value -> St -> res St) fuel sel rcvr limit step s :=
  match sel with
  | ToDo => bc_to_do m blk fuel rcvr limit s
  | ToByDo => bc_to_by_do m blk fuel rcvr limit step s
  | DownToDo => bc_down_to_do m blk fuel rcvr limit s
  end.

(** A node specialised for the kinds of operands it is executed with runs the same loop
    as the primitive of the bytecode interpreter. *)
Lemma ast_loop_same {St} m (blk : value -> St -> res St) library fuel sel node rcvr limit step s :
  specialize sel rcvr limit step <> LGeneric ->
  node = LUninitialized \/ node = specialize sel rcvr limit step ->
  ast_loop m blk library fuel sel node rcvr limit step s =
  (r <- bc_loop m blk fuel sel rcvr limit step s ;; Ok (specialize sel rcvr limit step, r)).
Proof.
  intros Hg Hn. unfold ast_loop.
  assert (E : match node with LUninitialized => specialize sel rcvr limit step | n => n end
              = specialize sel rcvr limit step).
  { destruct Hn as [->| ->]; auto. destruct (specialize sel rcvr limit step); auto. }
  rewrite E. clear E Hn.
  destruct sel, rcvr; simpl in *; try congruence;
  destruct limit; simpl in *; try congruence;
  destruct step; simpl in *; try congruence;
  unfold bc_to_do, bc_to_by_do, bc_down_to_do, to_do_int, to_do_double, down_to_do_int,
    down_to_do_double; cbn;
  match goal with |- context [while_loop ?a ?b ?c ?d ?e ?f ?g] =>
    destruct (while_loop a b c d e f g); reflexivity end.
Qed.

(** ... and with operands of other kinds it fails. *)
Lemma ast_loop_other {St} m (blk : value -> St -> res St) library fuel sel node rcvr limit step s :
  (node = LIntInt \/ node = LIntDouble) -> specialize sel rcvr limit step <> node ->
  ast_loop m blk library fuel sel node rcvr limit step s = Err AttributeError.
Proof.
  intros Hn Hs. unfold ast_loop.
  destruct Hn as [->| ->]; cbn;
  destruct sel, rcvr; cbn in *; try reflexivity;
  destruct limit; cbn in *; try reflexivity; try congruence;
  destruct step; cbn in *; try reflexivity; try congruence.
Qed.
