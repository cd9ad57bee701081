(** Lemmas behind ReflProps.v. *)
From Coq Require Import ZArith Bool String List Lia.
From Verif Require Import Base NumModel ArrModel ArrSpec ArrProofs FldModel FldSpec FldProofs ReflModel ReflSpec.
Import ListNotations.
Open Scope Z_scope.
Open Scope list_scope.

Lemma py_index_in n z : 0 <= z < Z.of_nat n -> py_index n z = Ok (Z.to_nat z).
Proof.
  intros H. unfold py_index. destruct (Z.leb_spec 0 z), (Z.ltb_spec z (Z.of_nat n)); try lia. reflexivity.
Qed.
Lemma py_index_wraps n z : - Z.of_nat n <= z < 0 -> py_index n z = Ok (Z.to_nat (z + Z.of_nat n)).
Proof.
  intros H. unfold py_index. destruct (Z.leb_spec 0 z), (Z.ltb_spec z 0), (Z.leb_spec (- Z.of_nat n) z); try lia. reflexivity.
Qed.
Lemma py_index_out n z : z < - Z.of_nat n \/ Z.of_nat n <= z -> py_index n z = Err IndexError.
Proof.
  intros H. unfold py_index.
  destruct (Z.leb_spec 0 z), (Z.ltb_spec z (Z.of_nat n)), (Z.ltb_spec z 0), (Z.leb_spec (- Z.of_nat n) z); try lia; reflexivity.
Qed.

(** After a message: the invariant holds, the object is there and has [n] fields. *)
Lemma sent numeric n f w A k : winv numeric n w A -> (k < length A)%nat ->
  exists w' o, w_send (S f) w k = Ok w' /\ winv numeric n w' A /\ get_obj w' k = Ok o /\
    length (layout_of (w_cls w') (o_layout o)) = n /\ o_layout o = cur_idx (w_cls w') /\
    (forall i, get_field (w_cls w') o i = w_get w' k i).
Proof.
  intros Hw Hk. destruct (send_sync_ok numeric n f w A k Hw Hk) as (w' & o & E & W & Ec & Ho & Hl).
  exists w', o. assert (G : get_obj w' k = Ok o) by (unfold get_obj, get_slot; rewrite Ho; reflexivity).
  pose proof W as (H1 & _). pose proof (cur_lt _ _ H1) as Hc.
  split; [exact E|]. split; [exact W|]. split; [exact G|]. split; [|split].
  - rewrite Hl, <- Ec. apply H1. exact Hc.
  - rewrite Hl, Ec. reflexivity.
  - intros i. unfold w_get. rewrite G. reflexivity.
Qed.

Lemma with_fields_S c o n : length (layout_of c (o_layout o)) = S n -> with_fields c o = Ok (S n).
Proof. intros H. unfold with_fields. rewrite H. reflexivity. Qed.

Lemma at_any numeric n f w A k idx : winv numeric n w A -> (k < length A)%nat ->
  exists w', w_send (S f) w k = Ok w' /\ winv numeric n w' A /\
    w_at (S f) w k idx = (match n with
      | O => Err AttributeError
      | _ => z <- embedded_integer idx ;; i <- py_index n (z - 1) ;; v <- w_get w' k i ;; Ok (v, w')
      end).
Proof.
  intros Hw Hk. destruct (sent _ _ f _ _ _ Hw Hk) as (w' & o & E & W & G & L & _ & R).
  exists w'. split; [exact E|]. split; [exact W|]. unfold w_at. rewrite E. cbn [bind]. rewrite G. cbn [bind]. unfold inst_var_at.
  destruct n as [|n]; [unfold with_fields; rewrite L; reflexivity|]. rewrite (with_fields_S _ _ _ L). cbn [bind].
  destruct (embedded_integer idx) as [z|e]; [|reflexivity]. cbn [bind].
  destruct (py_index (S n) (z - 1)) as [i|e]; [|reflexivity]. cbn [bind]. rewrite R. reflexivity.
Qed.

Lemma at_put_ok numeric n f w A k z i v : winv numeric n w A -> (k < length A)%nat ->
  py_index n (z - 1) = Ok i -> (i < n)%nat -> numeric_write numeric i v ->
  exists w', w_at_put (S (S f)) w k (VInt z) v = Ok (v, w') /\
    winv numeric n w' (put_at A k (put_at (nth k A []) i v)).
Proof.
  intros Hw Hk Hz Hi Hn. destruct (sent _ _ (S f) _ _ _ Hw Hk) as (w1 & o & E & W & G & L & _ & R).
  destruct (w_set_after_send numeric n f (S f) w A k i v Hw Hk Hi) as (w1' & w2 & E1 & E2).
  rewrite E in E1. injection E1 as <-.
  exists w2. split; [|eapply w_set_result; eauto].
  unfold w_at_put. rewrite E. cbn [bind]. rewrite G. cbn [bind]. unfold inst_var_at_put.
  destruct n as [|n]; [lia|]. rewrite (with_fields_S _ _ _ L). cbn [bind embedded_integer]. rewrite Hz. cbn [bind].
  unfold w_set in E2. rewrite G in E2. cbn [bind] in E2.
  destruct (set_field (S (S f)) (w_cls w1) o i v) as [p|e]; [|discriminate]. cbn [bind fst snd] in *. injection E2 as ->. reflexivity.
Qed.

(** * Names *)
Lemma lookup_from_found names name : forall i, (i <= length names)%nat ->
  (lookup_from names (VSym name) i = -1 /\ ~ In name (firstn i names)) \/
  exists z, lookup_from names (VSym name) i = Z.of_nat z /\ (z < i)%nat /\ nth_error names z = Some name /\
    forall j, (z < j < i)%nat -> nth_error names j <> Some name.
Proof.
  induction i as [|i IH]; intros Hi; [left; split; [reflexivity|exact (fun H => H)]|]. cbn [lookup_from].
  destruct (nth_error names i) as [b|] eqn:E; [|apply nth_error_None in E; lia].
  destruct (String.eqb_spec name b) as [<-|N].
  - right. exists i. split; [reflexivity|]. split; [lia|]. split; [exact E|]. intros j Hj. lia.
  - destruct (IH ltac:(lia)) as [[H1 H2]|(z & H1 & H2 & H3 & H4)].
    + left. split; [exact H1|]. rewrite (firstn_S_nth _ _ _ E). intros H. apply in_app_or in H. destruct H as [H|[H|[]]]; auto.
    + right. exists z. split; [exact H1|]. split; [lia|]. split; [exact H3|]. intros j Hj.
      destruct (Nat.eq_dec j i) as [->|]; [rewrite E; congruence|apply H4; lia].
Qed.

Lemma lookup_found names name : In name names -> exists i, (i < length names)%nat /\
  lookup_field_index names (VSym name) = Z.of_nat i /\ nth_error names i = Some name /\
  (forall j, (i < j)%nat -> nth_error names j <> Some name).
Proof.
  intros Hin. destruct (lookup_from_found names name (length names) ltac:(lia)) as [[_ H]|(z & H1 & H2 & H3 & H4)].
  - exfalso. apply H. rewrite firstn_all. exact Hin.
  - exists z. split; [exact H2|]. split; [exact H1|]. split; [exact H3|].
    intros j Hj. destruct (Nat.lt_ge_cases j (length names)); [apply H4; lia|].
    rewrite (proj2 (nth_error_None names j)) by lia. discriminate.
Qed.

Lemma lookup_unknown names v : (forall name, v = VSym name -> ~ In name names) -> lookup_field_index names v = -1.
Proof.
  intros H. unfold lookup_field_index. generalize (length names). induction n as [|n IH]; [reflexivity|].
  cbn [lookup_from]. destruct v; auto. destruct (nth_error names n) as [b|] eqn:E; auto.
  destruct (String.eqb_spec s b) as [<-|]; auto. exfalso. eapply H; [reflexivity|]. eapply nth_error_In; eauto.
Qed.

Lemma first_index names name i : get_field_index names name = Some i ->
  nth_error names i = Some name /\ forall j, (j < i)%nat -> nth_error names j <> Some name.
Proof.
  revert i. induction names as [|x t IH]; intros i H; cbn [get_field_index] in H; [discriminate|].
  destruct (String.eqb_spec x name) as [<-|N].
  - injection H as <-. split; [reflexivity|]. intros j Hj. lia.
  - destruct (get_field_index t name) as [j|] eqn:E; [|discriminate]. injection H as <-.
    destruct (IH j eq_refl) as [A B]. split; [exact A|]. intros [|q] Hq; cbn [nth_error]; [congruence|]. apply B. lia.
Qed.
Lemma index_some names name : In name names -> exists i, get_field_index names name = Some i.
Proof.
  induction names as [|x t IH]; intros H; [contradiction|]. cbn [get_field_index].
  destruct (String.eqb_spec x name) as [<-|N]; [eauto|]. destruct H as [H|H]; [congruence|].
  destruct (IH H) as [i ->]. cbn. eauto.
Qed.

Lemma named_any numeric names f w A k name : winv numeric (length names) w A -> (k < length A)%nat ->
  exists w', w_send (S f) w k = Ok w' /\ winv numeric (length names) w' A /\
    w_named (S f) names w k name = (match length names with
      | O => Err AttributeError
      | n => i <- py_index n (lookup_field_index names name) ;; v <- w_get w' k i ;; Ok (v, w')
      end).
Proof.
  intros Hw Hk. destruct (sent _ _ f _ _ _ Hw Hk) as (w' & o & E & W & G & L & _ & R).
  exists w'. split; [exact E|]. split; [exact W|]. unfold w_named. rewrite E. cbn [bind]. rewrite G. cbn [bind]. unfold inst_var_named.
  remember (length names) as n eqn:En. clear En. destruct n as [|n]; [unfold with_fields; rewrite L; reflexivity|].
  rewrite (with_fields_S _ _ _ L). cbn [bind].
  destruct (py_index (S n) (lookup_field_index names name)) as [i|e]; [|reflexivity]. cbn [bind]. rewrite R. reflexivity.
Qed.

(** * Histories *)
Lemma rspec_length m n A op :
  length (rspec_step m n A op) = match op with RField FNew => S (length A) | _ => length A end.
Proof.
  destruct op; cbn [rspec_step]; try reflexivity; [|apply put_at_length].
  rewrite fspec_length. destruct op; reflexivity.
Qed.

Lemma rexec_inv numeric m f names w A op w' : winv numeric (length names) w A -> rvalid names (length A) op ->
  (forall k i v, op = RField (FSet k i v) -> word_sized v -> In i numeric) ->
  (forall k i v, op = RAtPut k i v -> word_sized v -> In (Z.to_nat (i - 1)) numeric) ->
  rexec m (S (S f)) names w op = Ok w' -> winv numeric (length names) w' (rspec_step m (length names) A op).
Proof.
  intros Hw Hv H1 H2 E. destruct op as [op|k z|k z v|k name]; cbn [rexec rspec_step rvalid] in *.
  - eapply fexec_inv; eauto. intros k i v -> W. eapply H1; eauto.
  - destruct Hv as [Hk Hz]. destruct (at_any _ _ (S f) _ _ _ (VInt z) Hw Hk) as (w1 & E1 & W & E2). rewrite E2 in E.
    destruct (length names) as [|n] eqn:En; [lia|]. cbn [embedded_integer bind] in E.
    rewrite py_index_in in E by lia. cbn [bind] in E. destruct (w_get w1 k (Z.to_nat (z - 1))); [|discriminate].
    cbn [bind snd] in E. injection E as <-. exact W.
  - destruct Hv as [Hk Hz].
    destruct (at_put_ok _ _ f _ _ k z (Z.to_nat (z - 1)) v Hw Hk) as (w1 & E1 & W); [apply py_index_in; lia|lia| |].
    + intros Ws. eapply H2; eauto.
    + rewrite E1 in E. cbn [bind snd] in E. injection E as <-. exact W.
  - destruct Hv as [Hk Hin]. destruct (named_any _ names (S f) _ _ _ (VSym name) Hw Hk) as (w1 & E1 & W & E2). rewrite E2 in E.
    destruct (length names) as [|n] eqn:En; [discriminate|].
    destruct (py_index (S n) (lookup_field_index names (VSym name))); [|discriminate]. cbn [bind] in E.
    destruct (w_get w1 k a); [|discriminate]. cbn [bind snd] in E. injection E as <-. exact W.
Qed.

Lemma rrun_inv numeric m f names ops : forall w A w', winv numeric (length names) w A ->
  rvalid_history names (length A) ops ->
  (forall k i v, In (RField (FSet k i v)) ops -> word_sized v -> In i numeric) ->
  (forall k i v, In (RAtPut k i v) ops -> word_sized v -> In (Z.to_nat (i - 1)) numeric) ->
  rrun m (S (S f)) names w ops = Ok w' -> winv numeric (length names) w' (rspec_run m (length names) A ops).
Proof.
  induction ops as [|op ops IH]; intros w A w' Hw Hv H1 H2 E; cbn [rrun rspec_run rvalid_history] in *.
  - injection E as <-. exact Hw.
  - destruct Hv as [Hv Ht]. destruct (rexec m (S (S f)) names w op) as [w1|] eqn:E1; [|discriminate]. cbn [bind] in E.
    eapply IH; [eapply rexec_inv; eauto| | | |exact E].
    + intros k i v -> W. apply (H1 k i v); auto. now left.
    + intros k i v -> W. apply (H2 k i v); auto. now left.
    + rewrite rspec_length. exact Ht.
    + intros k i v H W. apply (H1 k i v); auto. now right.
    + intros k i v H W. apply (H2 k i v); auto. now right.
Qed.

Lemma rcreated m n ops : forall A, length (rspec_run m n A ops) = (length A + created ops)%nat.
Proof.
  induction ops as [|op ops IH]; intros A; cbn [rspec_run]; [unfold created; cbn; lia|].
  rewrite IH, rspec_length. unfold created. destruct op as [[]| | |]; cbn; lia.
Qed.

Lemma rvalid_fields names ops : forall c, rvalid_history names c ops ->
  (forall k i v, In (RField (FSet k i v)) ops -> word_sized v -> In i (seq 0 (length names))) /\
  (forall k i v, In (RAtPut k i v) ops -> word_sized v -> In (Z.to_nat (i - 1)) (seq 0 (length names))).
Proof.
  induction ops as [|op ops IH]; intros c Hv; [split; intros ? ? ? []|].
  cbn in Hv. destruct Hv as [Ho Hv]. destruct (IH _ Hv) as [I1 I2].
  split; intros k i v [->|H] Hs; [apply in_seq; cbn in Ho; lia|eauto|apply in_seq; cbn in Ho; lia|eauto].
Qed.

(** The invariant with the fields that are ever numeric, and with all of them. *)
Lemma reached_all m f names ops w : rvalid_history names 0 ops ->
  rrun m (S (S f)) names (new_world (length names)) ops = Ok w ->
  winv (seq 0 (length names)) (length names) w (rspec_run m (length names) [] ops).
Proof.
  intros Hv E. destruct (rvalid_fields _ _ _ Hv) as [H1 H2].
  eapply rrun_inv; [apply winv_empty|exact Hv|exact H1|exact H2|exact E].
Qed.
Lemma shows_inv numeric n w A : winv numeric n w A -> (length numeric <= 32)%nat -> shows n w A.
Proof. intros W Hn k i Hk Hi. destruct (winv_read _ _ _ _ k i W Hk Hi) as [R|[_ B]]; [exact R|lia]. Qed.

(** * objectSize *)
Lemma ptrs_count L : ptr_locations_used L = length (filter (fun t => match t with Some TObj => true | _ => false end) L).
Proof. induction L as [|[[| |]|] L IH]; cbn; auto. Qed.

Lemma size_any numeric n f w A k : winv numeric n w A -> (k < length A)%nat -> (0 < n)%nat ->
  exists w', w_send (S f) w k = Ok w' /\ winv numeric n w' A /\
    (w_size (S f) w k = Ok (VInt (Z.of_nat (reference_fields w' - 5)), w') \/
     (w_size (S f) w k = Err TypeError /\ (reference_fields w' <= 5)%nat)) /\ (reference_fields w' <= n)%nat.
Proof.
  intros Hw Hk Hn. destruct (sent _ _ f _ _ _ Hw Hk) as (w' & o & E & W & G & L & Lc & R).
  exists w'. split; [exact E|]. split; [exact W|].
  assert (Hs : shape (cur_layout (w_cls w')) o).
  { destruct (winv_obj _ _ _ _ _ W Hk) as (o2 & Ho & (_ & (Hsh & _) & _)).
    unfold get_obj, get_slot in G. rewrite Ho in G. injection G as ->. rewrite Lc in Hsh. exact Hsh. }
  unfold w_size. rewrite E. cbn [bind]. rewrite G. cbn [bind]. unfold object_size. rewrite L. destruct n as [|n]; [lia|].
  destruct Hs as (_ & _ & _ & Hs). unfold used_ext_ptr in Hs. rewrite ptrs_count in Hs.
  change (length (filter _ (cur_layout (w_cls w')))) with (reference_fields w') in Hs. unfold NUMBER_OF_POINTER_FIELDS in Hs.
  split.
  - destruct (o_fields o) as [l|]; [left; cbn [bind]; rewrite Hs; reflexivity|right; split; [reflexivity|lia]].
  - unfold reference_fields. rewrite Lc in L. fold (cur_layout (w_cls w')) in L.
    rewrite <- L. clear. induction (cur_layout (w_cls w')) as [|t l IH]; cbn [filter length]; [lia|]. destruct t as [[| |]|]; cbn [length]; lia.
Qed.
