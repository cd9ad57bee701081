(** Property theorems about arrays: C12-C18. *)
From Coq Require Import ZArith Bool String List Floats.SpecFloat Lia.
From Verif Require Import Base NumModel ArrModel ArrSpec ArrProofs.
Import ListNotations.
Open Scope Z_scope.
Open Scope list_scope.

(** * C12: after any history of operations that all succeeded, every array reads as the
    sequence computed by the specification, and its length is that of the sequence. *)
Theorem C12_reads_see_last_write : forall m ops h,
  valid_history [] ops -> run m empty_heap ops = Ok h ->
  forall a, (a < length (spec_run [] ops))%nat ->
    prim_length h a = Ok (VInt (Z.of_nat (length (elements (spec_run [] ops) a))))
    /\ forall i, 1 <= i <= Z.of_nat (length (elements (spec_run [] ops) a)) ->
       exists v, nth_error (elements (spec_run [] ops) a) (Z.to_nat (i - 1)) = Some v
         /\ prim_at m h a (VInt i) = Ok v.
Proof. exact history_refines. Qed.
Print Assumptions C12_reads_see_last_write.

(** A history through the empty, partially empty, integer and object specialisations. *)
Definition c12_history : list aop :=
  [ONew 3; OAtPut 0 1 (VInt 7); OAtPut 0 3 (VInt 9); OAtPut 0 2 (VInt 8); OCopy 0;
   OAtPut 0 2 (VStr "x"); OPutAll 1 (VDbl (S754_zero false)); OAtPut 0 1 VNil; OExtend 0 VTrue].
Example C12_nonvacuous :
  valid_history [] c12_history
  /\ spec_run [] c12_history =
     [[VNil; VStr "x"; VInt 9]; repeat (VDbl (S754_zero false)) 3; [VNil; VStr "x"; VInt 9; VTrue]]
  /\ exists h, run Translated empty_heap c12_history = Ok h
       /\ prim_at Translated h 0 (VInt 2) = Ok (VStr "x").
Proof.
  split; [|split; [reflexivity|eexists; split; reflexivity]].
  simpl. repeat split; simpl; lia.
Qed.

(** * C13 *)
(** Missing for the full property: an array all of whose elements are Doubles (or all
    booleans) may reject values of other kinds, see the refutation below. *)
Theorem C13_store_succeeds_partial : forall m ops h a i v,
  valid_history [] ops -> run m empty_heap ops = Ok h ->
  (a < length (spec_run [] ops))%nat ->
  1 <= i <= Z.of_nat (length (elements (spec_run [] ops) a)) ->
  (forallb is_dbl (elements (spec_run [] ops) a) = true -> is_dbl v = true) ->
  (forallb is_boolean (elements (spec_run [] ops) a) = true -> is_boolean v = true) ->
  exists h', prim_at_put m h a (VInt i) v = Ok h'.
Proof.
  intros m ops h a i v V R Ha Hi H1 H2.
  exact (store_succeeds m ops h a i v V R (conj Ha Hi) (conj H1 H2)).
Qed.
Print Assumptions C13_store_succeeds_partial.

(** (Array new: 1) at: 1 put: 0.0; at: 1 put: nil — the second store fails. *)
Theorem C13_store_refuted : forall m, exists ops h,
  valid_history [] ops /\ run m empty_heap ops = Ok h
  /\ prim_length h 0 = Ok (VInt 1)
  /\ prim_at_put m h 0 (VInt 1) VNil = Err AssertionError.
Proof.
  intros m. exists [ONew 1; OAtPut 0 1 (VDbl (S754_zero false))].
  eexists. split; [simpl; repeat split; simpl; lia|]. repeat split.
Qed.
Print Assumptions C13_store_refuted.

Example C13_nonvacuous : exists h,
  run Translated empty_heap [ONew 2; OAtPut 0 1 (VInt 5)] = Ok h
  /\ exists h', prim_at_put Translated h 0 (VInt 2) (VDbl (S754_zero false)) = Ok h'
     /\ prim_at Translated h' 0 (VInt 1) = Ok (VInt 5).
Proof. eexists; split; [reflexivity|]. eexists; split; reflexivity. Qed.

(** * C14 *)
(** Missing for the full property: indices 1-length .. 0 are accepted on arrays that are
    not all nil, see [C14_small_indices_wrap]. *)
Theorem C14_out_of_range_rejected_partial : forall m ops h a i,
  valid_history [] ops -> run m empty_heap ops = Ok h -> (a < length (spec_run [] ops))%nat ->
  let n := Z.of_nat (length (elements (spec_run [] ops) a)) in
  i < 1 - n \/ n < i ->
  (forall v, prim_at m h a (VInt i) <> Ok v) /\
  (forall v h', prim_at_put m h a (VInt i) v <> Ok h').
Proof. exact out_of_range. Qed.
Print Assumptions C14_out_of_range_rejected_partial.

(** Exactly which element the wrap-around indices read. *)
Theorem C14_small_indices_wrap : forall m ops h a i,
  valid_history [] ops -> run m empty_heap ops = Ok h -> (a < length (spec_run [] ops))%nat ->
  let es := elements (spec_run [] ops) a in
  forallb isnil es = false -> 1 - Z.of_nat (length es) <= i <= 0 ->
  prim_at m h a (VInt i) = Ok (nth (Z.to_nat (i - 1 + Z.of_nat (length es))) es VNil).
Proof. exact wraps. Qed.
Print Assumptions C14_small_indices_wrap.

(** at: 0 answers the last element and at: 0 put: overwrites it. *)
Theorem C14_out_of_range_refuted : forall m, exists ops h h',
  valid_history [] ops /\ run m empty_heap ops = Ok h
  /\ prim_at m h 0 (VInt 0) = Ok (VInt 20)
  /\ prim_at_put m h 0 (VInt 0) (VInt 33) = Ok h' /\ prim_at m h' 0 (VInt 2) = Ok (VInt 33).
Proof.
  intros m. exists [OInts [10; 20]]. eexists. eexists.
  split; [simpl; auto|]. split; [reflexivity|]. split; [reflexivity|].
  split; [reflexivity|]. reflexivity.
Qed.
Print Assumptions C14_out_of_range_refuted.

Example C14_nonvacuous : exists h,
  run Hosted empty_heap [OInts [10; 20]] = Ok h /\ prim_at Hosted h 0 (VInt 3) = Err IndexError.
Proof. eexists; split; reflexivity. Qed.

(** * C15 *)
Theorem C15_put_all_value : forall m ops h a v,
  valid_history [] ops -> run m empty_heap ops = Ok h -> (a < length (spec_run [] ops))%nat ->
  let n := Z.of_nat (length (elements (spec_run [] ops) a)) in
  exists h', prim_put_all h a v = Ok h' /\ prim_length h' a = Ok (VInt n)
    /\ forall i, 1 <= i <= n -> prim_at m h' a (VInt i) = Ok v.
Proof. exact put_all_value. Qed.
Print Assumptions C15_put_all_value.

(** putAll: with an arbitrary block — any fallible transformer of a state that contains
    the heap (so it may write to any array, including the receiver) and in which arrays
    do not disappear.  It is evaluated exactly [n] times in order, and the elements are
    its results exactly when the results are uniform. *)
Theorem C15_put_all_block_iff_uniform :
  forall (St : Type) m (cur : St -> aheap) put a (blk : St -> res (value * St)) s ops,
  (forall s h, cur (put s h) = h) ->
  valid_history [] ops -> run m empty_heap ops = Ok (cur s) ->
  (a < length (spec_run [] ops))%nat ->
  (forall s1 v s2, blk s1 = Ok (v, s2) -> (length (arrs (cur s1)) <= length (arrs (cur s2)))%nat) ->
  let n := length (elements (spec_run [] ops) a) in
  match prim_put_all_block cur put a blk s with
  | Ok s' => exists vs s1, collect blk n s = Ok (vs, s1)
       /\ prim_length (cur s') a = Ok (VInt (Z.of_nat n))
       /\ (uniform_results vs = true <->
           forall i, 1 <= i <= Z.of_nat n ->
             prim_at m (cur s') a (VInt i) = Ok (nth (Z.to_nat (i - 1)) vs VNil))
  | Err e => collect blk n s = Err e
  end.
Proof. exact @put_all_block. Qed.
Print Assumptions C15_put_all_block_iff_uniform.

(** A block answering 1 and then a string leaves 0 where the string should be; a block
    answering true leaves the Double 1.0. *)
Theorem C15_put_all_block_refuted : forall m, exists ops h h1 h2,
  valid_history [] ops /\ run m empty_heap ops = Ok h
  /\ exec m h (OPutAllBlock 0 [VInt 1; VStr "x"]) = Ok h1
  /\ prim_at m h1 0 (VInt 2) = Ok (VInt 0)
  /\ exec m h (OPutAllBlock 0 [VTrue; VTrue]) = Ok h2
  /\ prim_at m h2 0 (VInt 1) = Ok (VDbl (float_of_Z 1)).
Proof.
  intros m. exists [ONew 2]. eexists. eexists. eexists.
  split; [simpl; auto|]. split; [reflexivity|].
  split; [reflexivity|]. split; [reflexivity|]. split; reflexivity.
Qed.
Print Assumptions C15_put_all_block_refuted.

Example C15_nonvacuous : exists h h',
  run Translated empty_heap [ONew 2] = Ok h
  /\ exec Translated h (OPutAllBlock 0 [VNil; VInt 4]) = Ok h'
  /\ prim_at Translated h' 0 (VInt 2) = Ok (VInt 4)
  /\ uniform_results [VNil; VInt 4] = true.
Proof. eexists; eexists. repeat split. Qed.

(** * C16: after copying array [a] (the copy gets the next number) and any later history,
    whichever of the two was not written since still has the elements [a] had. *)
Theorem C16_copy_independent : forall m before a after h x,
  valid_history [] (before ++ OCopy a :: after) ->
  run m empty_heap (before ++ OCopy a :: after) = Ok h ->
  let copy := length (spec_run [] before) in
  (a < copy)%nat -> x = a \/ x = copy ->
  (forall op, In op after -> ~ writes op x) ->
  let es := elements (spec_run [] before) a in
  prim_length h x = Ok (VInt (Z.of_nat (length es)))
  /\ forall i, 1 <= i <= Z.of_nat (length es) ->
       prim_at m h x (VInt i) = Ok (nth (Z.to_nat (i - 1)) es VNil).
Proof.
  intros m before a after h x V R copy Ha Hx W es.
  pose proof (new_copy_independent m before (OCopy a) es after h x eq_refl V R) as H.
  cbv zeta in H. fold copy in H.
  destruct Hx as [Hx|Hx]; subst x.
  - assert (E : Nat.eqb a copy = false) by (apply Nat.eqb_neq; lia).
    rewrite E in H. apply H; auto; lia.
  - rewrite Nat.eqb_refl in H. apply H; auto.
Qed.
Print Assumptions C16_copy_independent.

Theorem C16_extension_independent : forall m before a v after h,
  valid_history [] (before ++ OExtend a v :: after) ->
  run m empty_heap (before ++ OExtend a v :: after) = Ok h ->
  let copy := length (spec_run [] before) in
  let es := elements (spec_run [] before) a in
  (a < copy)%nat ->
  ((forall op, In op after -> ~ writes op copy) ->
    forall i, 1 <= i <= Z.of_nat (length es) + 1 ->
       prim_at m h copy (VInt i) = Ok (nth (Z.to_nat (i - 1)) (es ++ [v]) VNil))
  /\ ((forall op, In op after -> ~ writes op a) ->
    forall i, 1 <= i <= Z.of_nat (length es) ->
       prim_at m h a (VInt i) = Ok (nth (Z.to_nat (i - 1)) es VNil)).
Proof.
  intros m before a v after h V R copy es Ha. split; intros W i Hi.
  - pose proof (new_copy_independent m before (OExtend a v) (es ++ [v]) after h copy eq_refl V R) as H.
    cbv zeta in H. fold copy in H. rewrite Nat.eqb_refl in H.
    apply H; auto. rewrite app_length. simpl. lia.
  - pose proof (new_copy_independent m before (OExtend a v) (es ++ [v]) after h a eq_refl V R) as H.
    cbv zeta in H. fold copy in H.
    assert (E : Nat.eqb a copy = false) by (apply Nat.eqb_neq; lia).
    rewrite E in H. apply H; auto; lia.
Qed.
Print Assumptions C16_extension_independent.

(** The storage of an all-nil array is shared by its copy; a later store separates them. *)
Example C16_nonvacuous : exists h,
  valid_history [] ([ONew 2] ++ OCopy 0 :: [OAtPut 0 1 (VInt 3)])
  /\ run Translated empty_heap ([ONew 2] ++ OCopy 0 :: [OAtPut 0 1 (VInt 3)]) = Ok h
  /\ prim_at Translated h 0 (VInt 1) = Ok (VInt 3) /\ prim_at Translated h 1 (VInt 1) = Ok VNil.
Proof. eexists. split; [simpl; repeat split; simpl; lia|]. repeat split. Qed.

(** * C17 *)
(** Reading back the elements of a new array. *)
Definition holds_exactly (m : mode) (h : aheap) (a : nat) (vs : list value) : Prop :=
  prim_length h a = Ok (VInt (Z.of_nat (length vs)))
  /\ forall i, 1 <= i <= Z.of_nat (length vs) ->
       prim_at m h a (VInt i) = Ok (nth (Z.to_nat (i - 1)) vs VNil).

Lemma holds_alloc m h st vs : wf st -> holds_exactly m (fst (alloc h st)) (snd (alloc h st)) vs <-> elems st = vs.
Proof.
  intros W.
  assert (S : storage_of (fst (alloc h st)) (snd (alloc h st)) = Some st).
  { unfold storage_of. simpl. rewrite nth_error_app2, Nat.sub_diag by auto. simpl.
    rewrite nth_error_app2, Nat.sub_diag by auto. auto. }
  unfold holds_exactly. split.
  - intros [L H]. unfold prim_length, with_array in L. rewrite S, size_elems in L by auto.
    inversion L as [L']. apply Nat2Z.inj in L'. apply (reads_iff m st vs _ _ W S L'). auto.
  - intros E. split.
    + unfold prim_length, with_array. rewrite S, size_elems by auto. rewrite E. auto.
    + apply (reads_iff m st vs _ _ W S). { congruence. } auto.
Qed.

(** Exactly when an array built from a sequence of elements contains them. *)
Theorem C17_from_values_iff_no_nil_mix : forall m h vs,
  (exists st, from_values vs = Ok st /\ holds_exactly m (fst (alloc h st)) (snd (alloc h st)) vs)
  <-> no_nil_mix vs = true.
Proof.
  intros m h vs. rewrite <- from_values_iff. split; intros (st & H1 & H2).
  - exists st. split; auto. eapply (holds_alloc m h st vs); eauto.
    clear H2. unfold from_values in H1. destruct (determine_strategy vs) as [k|].
    + unfold new_storage_with_values in H1. destruct k;
        repeat match type of H1 with (bind ?x _) = _ => destruct x; simpl in H1 end;
        inversion H1; subst; simpl; auto.
    + inversion H1; subst. simpl. lia.
  - exists st. split; auto. apply holds_alloc; auto.
    assert (N : no_nil_mix vs = true) by (apply from_values_iff; eauto).
    destruct (from_values_ok vs N) as (st' & H1' & _ & W). congruence.
Qed.
Print Assumptions C17_from_values_iff_no_nil_mix.

Theorem C17_from_objects_and_integers : forall m h vs zs,
  holds_exactly m (fst (alloc h (from_objects vs))) (snd (alloc h (from_objects vs))) vs
  /\ holds_exactly m (fst (alloc h (from_integers zs))) (snd (alloc h (from_integers zs))) (map VInt zs).
Proof. intros. split; apply holds_alloc; simpl; auto. Qed.
Print Assumptions C17_from_objects_and_integers.

(** (1 nil) fails to build and (true nil) reads back as (true false). *)
Theorem C17_from_values_refuted :
  from_values [VInt 1; VNil] = Err AttributeError
  /\ from_values [VTrue; VNil] = Ok (SBool [true; false]).
Proof. split; reflexivity. Qed.
Print Assumptions C17_from_values_refuted.

Example C17_nonvacuous : no_nil_mix [VInt 1; VStr "x"; VNil] = true
  /\ no_nil_mix [VInt 1; VInt 2] = true /\ no_nil_mix [VNil; VNil] = true.
Proof. repeat split. Qed.

(** * C18 *)
Theorem C18_do_indexes : forall (St : Type) (cur : St -> aheap) a (blk : value -> St -> res St) s n,
  prim_length (cur s) a = Ok (VInt (Z.of_nat n)) ->
  prim_do_indexes cur a blk s =
  fold_left (fun r i => s <- r ;; blk (VInt (Z.of_nat i)) s) (seq 1 n) (Ok s).
Proof.
  intros St cur a blk s n L. unfold prim_length, with_array in L.
  unfold prim_do_indexes, with_array. destruct (storage_of (cur s) a); [|discriminate].
  inversion L as [L']. rewrite L', Nat2Z.id, do_indexes_ok.
  rewrite <- seq_shift. generalize (Ok s). generalize (seq 0 n).
  induction l as [|k l IH]; intros r; cbn [map fold_left]; auto.
  rewrite <- IH. f_equal. destruct r; auto. cbn [bind]. do 2 f_equal. lia.
Qed.
Print Assumptions C18_do_indexes.

(** do: with any block, even one that writes into the array: position i is read just
    before the i-th evaluation. *)
Theorem C18_do_reads_each_position :
  forall (St : Type) m (cur : St -> aheap) a (blk : value -> St -> res St) s n,
  prim_length (cur s) a = Ok (VInt (Z.of_nat n)) ->
  prim_do m cur a blk s =
  fold_left (fun r i => s <- r ;; v <- prim_at m (cur s) a (VInt (Z.of_nat i)) ;; blk v s)
    (seq 1 n) (Ok s).
Proof.
  intros St m cur a blk s n L. unfold prim_length, with_array in L.
  unfold prim_do. unfold with_array at 1. destruct (storage_of (cur s) a); [|discriminate].
  inversion L as [L']. rewrite L', Nat2Z.id, do_loop_ok.
  rewrite <- seq_shift. generalize (Ok s). generalize (seq 0 n).
  induction l as [|k l IH]; intros r; cbn [map fold_left]; auto.
  rewrite <- IH. f_equal. destruct r; auto. cbn [bind].
  replace (Z.of_nat (S k)) with (0 + 1 + Z.of_nat k) by lia. reflexivity.
Qed.
Print Assumptions C18_do_reads_each_position.

(** do: with a block that leaves the array alone visits exactly its elements in order. *)
Theorem C18_do_visits_elements :
  forall (St : Type) m (cur : St -> aheap) a (blk : value -> St -> res St) s ops,
  valid_history [] ops -> run m empty_heap ops = Ok (cur s) ->
  (a < length (spec_run [] ops))%nat ->
  (forall v s s' i, blk v s = Ok s' -> prim_at m (cur s') a i = prim_at m (cur s) a i) ->
  prim_do m cur a blk s =
  fold_left (fun r v => s <- r ;; blk v s) (elements (spec_run [] ops) a) (Ok s).
Proof.
  intros St m cur a blk s ops V R Ha Hp.
  destruct (history_refines m ops _ V R a Ha) as [L E].
  unfold prim_length, with_array in L.
  unfold prim_do. unfold with_array at 1. destruct (storage_of (cur s) a); [|discriminate].
  inversion L as [L']. rewrite L', Nat2Z.id. apply do_elements; auto.
  intros k Hk. destruct (E (0 + 1 + Z.of_nat k)) as (v & Hv & Hat); [lia|].
  rewrite Hat. f_equal. replace (Z.to_nat (0 + 1 + Z.of_nat k - 1)) with k in Hv by lia.
  symmetry. apply nth_error_nth. auto.
Qed.
Print Assumptions C18_do_visits_elements.

Example C18_nonvacuous : exists h,
  run Translated empty_heap [OInts [3; 4; 5]] = Ok h
  /\ prim_do Translated fst 0 (fun v s => Ok (fst s, snd s ++ [v])) (h, []) = Ok (h, [VInt 3; VInt 4; VInt 5]).
Proof. eexists; split; reflexivity. Qed.

(** The arguments that invokeOn:with: takes from an array are its elements, in order. *)
Theorem C65_argument_array : forall m st,
  (0 <= get_size st)%Z ->
  Z.of_nat (length (as_arguments_array st)) = get_size st /\
  forall i v, nth_error (as_arguments_array st) i = Some v <->
              (Z.of_nat i < get_size st)%Z /\ get_idx m st (Z.of_nat i) = Ok v.
Proof.
  intros m st Hs.
  assert (G : forall A (l : list A) i, (Z.of_nat i < Z.of_nat (length l))%Z -> exists x,
            nth_error l i = Some x /\ py_get m l (Z.of_nat i) = Ok x).
  { intros A l i L. destruct (nth_error l i) as [x|] eqn:E.
    - exists x. split; [reflexivity|]. unfold py_get, py_index.
      replace ((0 <=? Z.of_nat i)%Z && (Z.of_nat i <? Z.of_nat (length l))%Z) with true by lia.
      rewrite Nat2Z.id, E. reflexivity.
    - apply nth_error_None in E. lia. }
  assert (M : forall A (l : list A) (f : A -> value) i v,
            nth_error (map f l) i = Some v <->
            (Z.of_nat i < Z.of_nat (length l))%Z /\ (x <- py_get m l (Z.of_nat i) ;; Ok (f x)) = Ok v).
  { intros A l f i v. split.
    - intros H. assert (L : (i < length (map f l))%nat) by (apply nth_error_Some; congruence).
      rewrite map_length in L. split; [lia|]. destruct (G A l i) as (x & E1 & E2); [lia|].
      rewrite E2. cbn. rewrite nth_error_map, E1 in H. cbn in H. congruence.
    - intros [L H]. destruct (G A l i L) as (x & E1 & E2). rewrite E2 in H. cbn in H.
      rewrite nth_error_map, E1. cbn. congruence. }
  assert (N : forall (l : list value) i v, nth_error l i = Some v <->
            (Z.of_nat i < Z.of_nat (length l))%Z /\ py_get m l (Z.of_nat i) = Ok v).
  { intros l i v. split.
    - intros H. assert (L : (i < length l)%nat) by (apply nth_error_Some; congruence).
      split; [lia|]. destruct (G _ l i) as (x & E1 & E2); [lia|]. congruence.
    - intros [L H]. destruct (G _ l i L) as (x & E1 & E2). congruence. }
  destruct st; cbn [get_size as_arguments_array get_idx] in *; rewrite ?map_length, ?repeat_length;
    (split; [lia|]); intros i v; auto.
  split.
  - intros H. assert (L : (i < length (repeat VNil (Z.to_nat n)))%nat) by (apply nth_error_Some; congruence).
    rewrite repeat_length in L. apply nth_error_In, repeat_spec in H. subst v. split; [lia|].
    replace ((0 <=? Z.of_nat i)%Z && (Z.of_nat i <? n)%Z) with true by lia. reflexivity.
  - intros [L H]. replace ((0 <=? Z.of_nat i)%Z && (Z.of_nat i <? n)%Z) with true in H by lia.
    injection H as <-. apply nth_error_repeat. lia.
Qed.
Print Assumptions C65_argument_array.
Example C65_argument_array_nonvacuous :
  as_arguments_array (SLong [3; 4]%Z) = [VInt 3; VInt 4] /\ as_arguments_array (SEmpty 2) = [VNil; VNil].
Proof. split; reflexivity. Qed.
