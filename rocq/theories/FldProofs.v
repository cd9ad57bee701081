(** Lemmas behind FldProps.v. *)
From Coq Require Import ZArith Bool String List Lia Floats.SpecFloat.
From Verif Require Import Base NumModel ArrModel ArrSpec ArrProofs FldModel FldSpec.
Import ListNotations.
Open Scope Z_scope.
Open Scope list_scope.

Notation prims := prim_locations_used.
Notation ptrs := ptr_locations_used.

(** * Locations *)
Definition loc_of (t : option ftype) (a b : nat) : location :=
  match t with
  | None => LUnwritten
  | Some TInt => LPrim false a
  | Some TDbl => LPrim true a
  | Some TObj => LPtr b
  end.

Lemma assign_nth : forall L p q i,
  nth_error (assign_locations L p q) i =
  option_map (fun t => loc_of t (p + prims (firstn i L))%nat (q + ptrs (firstn i L))%nat)
             (nth_error L i).
Proof.
  induction L as [|t L IH]; intros p q i; [destruct i; reflexivity|].
  destruct i as [|i].
  - destruct t as [[| |]|]; cbn; rewrite ?Nat.add_0_r; reflexivity.
  - destruct t as [[| |]|]; cbn [assign_locations nth_error]; rewrite IH;
      cbn [firstn prim_locations_used ptr_locations_used];
      rewrite <- ?Nat.add_succ_comm; reflexivity.
Qed.

Lemma get_loc L i t : nth_error L i = Some t ->
  nth_error (storage_locations L) i = Some (loc_of t (prims (firstn i L)) (ptrs (firstn i L))).
Proof. intros H. unfold storage_locations. rewrite assign_nth, H. reflexivity. Qed.

Lemma loc_inv L i l : nth_error (storage_locations L) i = Some l ->
  exists t, nth_error L i = Some t /\ l = loc_of t (prims (firstn i L)) (ptrs (firstn i L)).
Proof.
  unfold storage_locations. rewrite assign_nth. destruct (nth_error L i); [|discriminate].
  cbn. intros [= <-]. eauto.
Qed.

Lemma prims_app a b : prims (a ++ b) = (prims a + prims b)%nat.
Proof. induction a as [|[[| |]|] a IH]; cbn; lia. Qed.
Lemma ptrs_app a b : ptrs (a ++ b) = (ptrs a + ptrs b)%nat.
Proof. induction a as [|[[| |]|] a IH]; cbn; lia. Qed.

Definition is_prim (t : option ftype) : bool :=
  match t with Some TInt | Some TDbl => true | _ => false end.
Definition is_ptr (t : option ftype) : bool :=
  match t with Some TObj => true | _ => false end.

Lemma firstn_S_nth {A} : forall (L : list A) i t, nth_error L i = Some t -> firstn (S i) L = firstn i L ++ [t].
Proof.
  induction L as [|x L IH]; intros [|i] t H; try discriminate.
  - injection H as ->. reflexivity.
  - cbn in H. change (firstn (S (S i)) (x :: L)) with (x :: firstn (S i) L). rewrite (IH _ _ H). reflexivity.
Qed.

Lemma prims_firstn_le L i j : (i <= j)%nat -> (prims (firstn i L) <= prims (firstn j L))%nat.
Proof.
  intros H. replace (firstn i L) with (firstn i (firstn j L)) by (rewrite firstn_firstn; f_equal; lia).
  rewrite <- (firstn_skipn i (firstn j L)) at 2. rewrite prims_app. lia.
Qed.
Lemma ptrs_firstn_le L i j : (i <= j)%nat -> (ptrs (firstn i L) <= ptrs (firstn j L))%nat.
Proof.
  intros H. replace (firstn i L) with (firstn i (firstn j L)) by (rewrite firstn_firstn; f_equal; lia).
  rewrite <- (firstn_skipn i (firstn j L)) at 2. rewrite ptrs_app. lia.
Qed.
Lemma prims_firstn_lt L i j t : nth_error L i = Some t -> is_prim t = true -> (i < j)%nat ->
  (prims (firstn i L) < prims (firstn j L))%nat.
Proof.
  intros H P Hj. pose proof (prims_firstn_le L (S i) j ltac:(lia)) as K.
  rewrite (firstn_S_nth _ _ _ H), prims_app in K. destruct t as [[| |]|]; try discriminate; cbn in K; lia.
Qed.
Lemma ptrs_firstn_lt L i j t : nth_error L i = Some t -> is_ptr t = true -> (i < j)%nat ->
  (ptrs (firstn i L) < ptrs (firstn j L))%nat.
Proof.
  intros H P Hj. pose proof (ptrs_firstn_le L (S i) j ltac:(lia)) as K.
  rewrite (firstn_S_nth _ _ _ H), ptrs_app in K. destruct t as [[| |]|]; try discriminate; cbn in K; lia.
Qed.
Lemma prims_bound L i t : nth_error L i = Some t -> is_prim t = true ->
  (prims (firstn i L) < prims L)%nat.
Proof.
  intros H P. assert (i < length L)%nat by (apply nth_error_Some; congruence).
  pose proof (prims_firstn_lt L i (length L) t H P ltac:(lia)). rewrite firstn_all in *. lia.
Qed.
Lemma ptrs_bound L i t : nth_error L i = Some t -> is_ptr t = true ->
  (ptrs (firstn i L) < ptrs L)%nat.
Proof.
  intros H P. assert (i < length L)%nat by (apply nth_error_Some; congruence).
  pose proof (ptrs_firstn_lt L i (length L) t H P ltac:(lia)). rewrite firstn_all in *. lia.
Qed.
Lemma prims_inj L i j t u : nth_error L i = Some t -> nth_error L j = Some u ->
  is_prim t = true -> is_prim u = true -> prims (firstn i L) = prims (firstn j L) -> i = j.
Proof.
  intros Hi Hj Pi Pj E. destruct (Nat.lt_trichotomy i j) as [K|[K|K]]; [|assumption|].
  - pose proof (prims_firstn_lt _ _ _ _ Hi Pi K). lia.
  - pose proof (prims_firstn_lt _ _ _ _ Hj Pj K). lia.
Qed.
Lemma ptrs_inj L i j t u : nth_error L i = Some t -> nth_error L j = Some u ->
  is_ptr t = true -> is_ptr u = true -> ptrs (firstn i L) = ptrs (firstn j L) -> i = j.
Proof.
  intros Hi Hj Pi Pj E. destruct (Nat.lt_trichotomy i j) as [K|[K|K]]; [|assumption|].
  - pose proof (ptrs_firstn_lt _ _ _ _ Hi Pi K). lia.
  - pose proof (ptrs_firstn_lt _ _ _ _ Hj Pj K). lia.
Qed.

(** * Slots *)
Definition shape (L : layout) (o : obj) : Prop :=
  length (o_field o) = 5%nat /\ length (o_prim o) = 5%nat
  /\ length (o_prims o) = used_ext_prim L
  /\ match o_fields o with Some l => length l = used_ext_ptr L | None => used_ext_ptr L = 0%nat end.

Lemma get_set_slot {A} (l : list A) k x : (k < length l)%nat ->
  set_slot l k x = Ok (upd l k x) /\ get_slot (upd l k x) k = Ok x
  /\ forall j, j <> k -> get_slot (upd l k x) j = get_slot l j.
Proof.
  intros H. unfold set_slot, get_slot. rewrite (proj2 (Nat.ltb_lt _ _) H).
  rewrite (nth_upd_same _ _ _ H). repeat split.
  intros j Hj. rewrite nth_upd_other by congruence. reflexivity.
Qed.

Lemma get_slot_ok {A} (l : list A) k : (k < length l)%nat -> exists x, get_slot l k = Ok x.
Proof.
  intros H. unfold get_slot. destruct (nth_error l k) eqn:E; [eauto|].
  apply nth_error_None in E. lia.
Qed.

Lemma set_prim_ok L o k w : shape L o -> (k < prims L)%nat ->
  exists o', set_prim o k w = Ok o' /\ shape L o' /\ get_prim o' k = Ok w
    /\ (forall j, j <> k -> get_prim o' j = get_prim o j)
    /\ (forall j, get_ptr o' j = get_ptr o j)
    /\ o_used o' = o_used o /\ o_layout o' = o_layout o.
Proof.
  intros (H1 & H2 & H3 & H4) Hk. unfold set_prim, get_prim, NUMBER_OF_PRIMITIVE_FIELDS in *.
  unfold used_ext_prim, NUMBER_OF_PRIMITIVE_FIELDS in H3.
  destruct (Nat.ltb_spec k 5).
  - destruct (get_set_slot (o_prim o) k w) as (E1 & E2 & E3); [lia|]. rewrite E1. cbn [bind].
    eexists. repeat split; cbn [o_field o_prim o_prims o_fields o_used o_layout]; rewrite ?upd_length; auto; try (destruct (Nat.ltb_spec k 5); [auto; lia|auto; lia]).
    intros j Hj. destruct (Nat.ltb_spec j 5); auto.
  - destruct (get_set_slot (o_prims o) (k - 5) w) as (E1 & E2 & E3); [lia|]. rewrite E1. cbn [bind].
    eexists. repeat split; cbn [o_field o_prim o_prims o_fields o_used o_layout]; rewrite ?upd_length; auto; try (destruct (Nat.ltb_spec k 5); [auto; lia|auto; lia]).
    intros j Hj. destruct (Nat.ltb_spec j 5); auto. apply E3. lia.
Qed.

Lemma get_prim_ok L o k : shape L o -> (k < prims L)%nat -> exists w, get_prim o k = Ok w.
Proof.
  intros (H1 & H2 & H3 & H4) Hk. unfold get_prim, used_ext_prim, NUMBER_OF_PRIMITIVE_FIELDS in *.
  destruct (Nat.ltb_spec k 5); apply get_slot_ok; lia.
Qed.

Lemma set_ptr_ok L o k v : shape L o -> (k < ptrs L)%nat ->
  exists o', set_ptr o k v = Ok o' /\ shape L o' /\ get_ptr o' k = Ok v
    /\ (forall j, j <> k -> get_ptr o' j = get_ptr o j)
    /\ (forall j, get_prim o' j = get_prim o j)
    /\ o_used o' = o_used o /\ o_layout o' = o_layout o.
Proof.
  intros (H1 & H2 & H3 & H4) Hk. unfold set_ptr, get_ptr, used_ext_ptr, NUMBER_OF_POINTER_FIELDS in *.
  destruct (Nat.ltb_spec k 5).
  - destruct (get_set_slot (o_field o) k v) as (E1 & E2 & E3); [lia|]. rewrite E1. cbn [bind].
    eexists. repeat split; cbn [o_field o_prim o_prims o_fields o_used o_layout]; rewrite ?upd_length; auto; try (destruct (Nat.ltb_spec k 5); [auto; lia|auto; lia]).
    intros j Hj. destruct (Nat.ltb_spec j 5); auto.
  - destruct (o_fields o) as [l|] eqn:El; [|lia].
    destruct (get_set_slot l (k - 5) v) as (E1 & E2 & E3); [lia|]. rewrite E1. cbn [bind].
    eexists. repeat split; cbn [o_field o_prim o_prims o_fields o_used o_layout]; rewrite ?upd_length; auto; try (destruct (Nat.ltb_spec k 5); [auto; lia|auto; lia]).
    intros j Hj. destruct (Nat.ltb_spec j 5); auto. apply E3. lia.
Qed.

Lemma get_ptr_ok L o k : shape L o -> (k < ptrs L)%nat -> exists v, get_ptr o k = Ok v.
Proof.
  intros (H1 & H2 & H3 & H4) Hk. unfold get_ptr, used_ext_ptr, NUMBER_OF_POINTER_FIELDS in *.
  destruct (Nat.ltb_spec k 5); [apply get_slot_ok; lia|].
  destruct (o_fields o); [apply get_slot_ok; lia|lia].
Qed.

(** * The map of set primitive slots *)
Lemma land_pow2 u k : Z.land u (2 ^ Z.of_nat k) = if Z.testbit u (Z.of_nat k) then 2 ^ Z.of_nat k else 0.
Proof.
  apply Z.bits_inj'. intros n Hn. rewrite Z.land_spec.
  destruct (Z.eqb_spec n (Z.of_nat k)) as [->|E].
  - rewrite Z.pow2_bits_true by lia. destruct (Z.testbit u (Z.of_nat k)); cbn.
    + now rewrite Z.pow2_bits_true by lia.
    + now rewrite Z.bits_0.
  - rewrite Z.pow2_bits_false by lia. rewrite andb_false_r.
    destruct (Z.testbit u (Z.of_nat k)); [now rewrite Z.pow2_bits_false by lia|now rewrite Z.bits_0].
Qed.

Lemma prim_set_bit o k : is_primitive_set o (mask k) = (Nat.ltb k 32 && Z.testbit (o_used o) (Z.of_nat k))%bool.
Proof.
  unfold is_primitive_set, mask. destruct (Nat.ltb_spec k 32); cbn [andb].
  - rewrite land_pow2. assert (0 < 2 ^ Z.of_nat k) by (apply Z.pow_pos_nonneg; lia).
    destruct (Z.testbit _ _); destruct (Z.eqb_spec (2 ^ Z.of_nat k) 0); cbn; try lia; auto.
  - now rewrite Z.land_0_r.
Qed.

Lemma prim_set_ext o o' k : o_used o = o_used o' -> is_primitive_set o k = is_primitive_set o' k.
Proof. unfold is_primitive_set. now intros ->. Qed.

Lemma mark_set_fields o mk :
  o_layout (mark_prim_as_set o mk) = o_layout o /\ o_field (mark_prim_as_set o mk) = o_field o
  /\ o_prim (mark_prim_as_set o mk) = o_prim o /\ o_prims (mark_prim_as_set o mk) = o_prims o
  /\ o_fields (mark_prim_as_set o mk) = o_fields o.
Proof. unfold mark_prim_as_set. destruct (_ =? _); cbn; auto. Qed.
Lemma mark_unset_fields o mk :
  o_layout (mark_prim_as_unset o mk) = o_layout o /\ o_field (mark_prim_as_unset o mk) = o_field o
  /\ o_prim (mark_prim_as_unset o mk) = o_prim o /\ o_prims (mark_prim_as_unset o mk) = o_prims o
  /\ o_fields (mark_prim_as_unset o mk) = o_fields o.
Proof. unfold mark_prim_as_unset. destruct (negb _); cbn; auto. Qed.

Lemma mark_set_bit o k j : is_primitive_set (mark_prim_as_set o (mask k)) (mask j)
  = if Nat.eqb j k then Nat.ltb k 32 else is_primitive_set o (mask j).
Proof.
  rewrite !prim_set_bit. unfold mark_prim_as_set, mask at 1 2.
  destruct (Nat.ltb_spec k 32).
  - rewrite land_pow2. assert (0 < 2 ^ Z.of_nat k) by (apply Z.pow_pos_nonneg; lia).
    destruct (Z.testbit (o_used o) (Z.of_nat k)) eqn:T.
    + destruct (Z.eqb_spec (2 ^ Z.of_nat k) 0); [lia|]. destruct (Nat.eqb_spec j k) as [->|]; auto.
      rewrite T. destruct (Nat.ltb_spec k 32); auto; lia.
    + cbn [o_used set_used Z.eqb]. rewrite Z.lor_spec.
      destruct (Nat.eqb_spec j k) as [->|N].
      * rewrite Z.pow2_bits_true by lia. rewrite orb_true_r.
        destruct (Nat.ltb_spec k 32); auto; lia.
      * rewrite Z.pow2_bits_false by lia. now rewrite orb_false_r.
  - rewrite Z.land_0_r. cbn [o_used set_used Z.eqb]. rewrite Z.lor_0_r.
    destruct (Nat.eqb_spec j k) as [->|]; auto.
    destruct (Nat.ltb_spec k 32); auto; lia.
Qed.

Lemma mark_unset_bit o k j : is_primitive_set (mark_prim_as_unset o (mask k)) (mask j)
  = if Nat.eqb j k then false else is_primitive_set o (mask j).
Proof.
  rewrite !prim_set_bit. unfold mark_prim_as_unset, mask at 1 2.
  destruct (Nat.ltb_spec k 32).
  - rewrite land_pow2. assert (0 < 2 ^ Z.of_nat k) by (apply Z.pow_pos_nonneg; lia).
    destruct (Z.testbit (o_used o) (Z.of_nat k)) eqn:T.
    + destruct (Z.eqb_spec (2 ^ Z.of_nat k) 0); [lia|]. cbn [negb o_used set_used].
      rewrite Z.land_spec, Z.lnot_spec by lia.
      destruct (Nat.eqb_spec j k) as [->|N].
      * rewrite Z.pow2_bits_true by lia. cbn. now rewrite !andb_false_r.
      * rewrite Z.pow2_bits_false by lia. cbn. now rewrite andb_true_r.
    + cbn [negb Z.eqb]. destruct (Nat.eqb_spec j k) as [->|]; auto. now rewrite T, andb_false_r.
  - rewrite Z.land_0_r. cbn [negb Z.eqb].
    destruct (Nat.eqb_spec j k) as [->|]; auto.
    destruct (Nat.ltb_spec k 32); auto; lia.
Qed.

(** * Reading and writing one location *)
Definition rd (L : layout) (o : obj) (i : nat) : res value :=
  l <- get_slot (storage_locations L) i ;; read_location l o.

Definition readable (L : layout) (o : obj) : Prop :=
  forall i, (i < length L)%nat -> exists v, rd L o i = Ok v.
Definition obj_ok (L : layout) (o : obj) : Prop := shape L o /\ readable L o.

Definition fits (t : option ftype) (v : value) : Prop :=
  match t with
  | None => v = VNil
  | Some TInt => v = VNil \/ exists z, v = VInt z
  | Some TDbl => v = VNil \/ exists d, v = VDbl d
  | Some TObj => True
  end.

Lemma rd_eq L o i t : nth_error L i = Some t ->
  rd L o i = read_location (loc_of t (prims (firstn i L)) (ptrs (firstn i L))) o.
Proof. intros H. unfold rd, get_slot. rewrite (get_loc _ _ _ H). reflexivity. Qed.

Lemma rd_fits L o i t v : nth_error L i = Some t -> rd L o i = Ok v -> fits t v.
Proof.
  intros H. rewrite (rd_eq _ _ _ _ H). destruct t as [[| |]|]; cbn.
  - destruct (is_primitive_set _ _); [|now intros [= <-]; left].
    destruct (get_prim _ _) as [[|]|]; cbn; try discriminate. intros [= <-]. eauto.
  - destruct (is_primitive_set _ _); [|now intros [= <-]; left].
    destruct (get_prim _ _) as [[|]|]; cbn; try discriminate. intros [= <-]. eauto.
  - auto.
  - now intros [= <-].
Qed.

(** Writing into a prim slot and marking it. *)
Lemma write_prim_ok L o i t b v w :
  obj_ok L o -> nth_error L i = Some t -> loc_of t (prims (firstn i L)) (ptrs (firstn i L)) = LPrim b (prims (firstn i L)) ->
  word_value b w = Ok v ->
  exists o', (o1 <- set_prim o (prims (firstn i L)) w ;; Ok (mark_prim_as_set o1 (mask (prims (firstn i L))))) = Ok o'
    /\ obj_ok L o' /\ o_layout o' = o_layout o
    /\ (forall j, j <> i -> (j < length L)%nat -> rd L o' j = rd L o j)
    /\ (rd L o' i = Ok v \/ (rd L o' i = Ok VNil /\ (32 < prims L)%nat)).
Proof.
  intros [Hs Hr] Hi Hl Hw.
  assert (Pt : is_prim t = true) by (destruct t as [[| |]|]; cbn in *; congruence).
  pose proof (prims_bound _ _ _ Hi Pt) as Hb.
  destruct (set_prim_ok L o _ w Hs Hb) as (o1 & E & S1 & G1 & G2 & G3 & U & Y).
  rewrite E. cbn [bind]. eexists; split; [reflexivity|].
  set (K := prims (firstn i L)) in *. set (o' := mark_prim_as_set o1 (mask K)).
  destruct (mark_set_fields o1 (mask K)) as (F1 & F2 & F3 & F4 & F5). fold o' in F1, F2, F3, F4, F5.
  assert (GP : forall j, get_prim o' j = get_prim o1 j) by (intros; unfold get_prim; now rewrite F3, F4).
  assert (GQ : forall j, get_ptr o' j = get_ptr o1 j) by (intros; unfold get_ptr; now rewrite F2, F5).
  assert (Oth : forall j, j <> i -> (j < length L)%nat -> rd L o' j = rd L o j).
  { intros j Hj Hlen. destruct (nth_error L j) as [u|] eqn:Ej; [|apply nth_error_None in Ej; lia].
    rewrite !(rd_eq _ _ _ _ Ej).
    assert (Hk : is_prim u = true -> prims (firstn j L) <> K).
    { intros Pu E2. apply Hj. eapply prims_inj; eauto. }
    destruct u as [[| |]|]; cbn.
    - specialize (Hk eq_refl). unfold o'. rewrite mark_set_bit.
      destruct (Nat.eqb_spec (prims (firstn j L)) K); [contradiction|].
      rewrite (prim_set_ext o1 o) by auto. fold o'. rewrite GP, G2 by auto. reflexivity.
    - specialize (Hk eq_refl). unfold o'. rewrite mark_set_bit.
      destruct (Nat.eqb_spec (prims (firstn j L)) K); [contradiction|].
      rewrite (prim_set_ext o1 o) by auto. fold o'. rewrite GP, G2 by auto. reflexivity.
    - rewrite GQ, G3. reflexivity.
    - reflexivity. }
  assert (This : rd L o' i = Ok v \/ (rd L o' i = Ok VNil /\ (32 < prims L)%nat)).
  { rewrite (rd_eq _ _ _ _ Hi). fold K. rewrite Hl. cbn [read_location]. unfold o'. rewrite mark_set_bit, Nat.eqb_refl.
    destruct (Nat.ltb_spec K 32); [left|right].
    - fold o'. rewrite GP, G1. cbn [bind]. exact Hw.
    - split; [reflexivity|lia]. }
  repeat split; auto.
  - rewrite F2. apply S1. - rewrite F3; apply S1. - rewrite F4; apply S1. - rewrite F5; apply S1.
  - intros j Hj. destruct (Nat.eq_dec j i) as [->|N].
    + destruct This as [T|[T _]]; rewrite T; eauto.
    + rewrite Oth by auto. apply Hr; auto.
  - congruence.
Qed.

Lemma write_unset_ok L o i t b :
  obj_ok L o -> nth_error L i = Some t -> loc_of t (prims (firstn i L)) (ptrs (firstn i L)) = LPrim b (prims (firstn i L)) ->
  let o' := mark_prim_as_unset o (mask (prims (firstn i L))) in
  obj_ok L o' /\ o_layout o' = o_layout o
    /\ (forall j, j <> i -> (j < length L)%nat -> rd L o' j = rd L o j)
    /\ rd L o' i = Ok VNil.
Proof.
  intros [Hs Hr] Hi Hl o'.
  assert (Pt : is_prim t = true) by (destruct t as [[| |]|]; cbn in *; congruence).
  set (K := prims (firstn i L)) in *.
  destruct (mark_unset_fields o (mask K)) as (F1 & F2 & F3 & F4 & F5). fold o' in F1, F2, F3, F4, F5.
  assert (GP : forall j, get_prim o' j = get_prim o j) by (intros; unfold get_prim; now rewrite F3, F4).
  assert (GQ : forall j, get_ptr o' j = get_ptr o j) by (intros; unfold get_ptr; now rewrite F2, F5).
  assert (Oth : forall j, j <> i -> (j < length L)%nat -> rd L o' j = rd L o j).
  { intros j Hj Hlen. destruct (nth_error L j) as [u|] eqn:Ej; [|apply nth_error_None in Ej; lia].
    rewrite !(rd_eq _ _ _ _ Ej).
    assert (Hk : is_prim u = true -> prims (firstn j L) <> K).
    { intros Pu E2. apply Hj. eapply prims_inj; eauto. }
    destruct u as [[| |]|]; cbn.
    - specialize (Hk eq_refl). unfold o'. rewrite mark_unset_bit.
      destruct (Nat.eqb_spec (prims (firstn j L)) K); [contradiction|]. fold o'. now rewrite GP.
    - specialize (Hk eq_refl). unfold o'. rewrite mark_unset_bit.
      destruct (Nat.eqb_spec (prims (firstn j L)) K); [contradiction|]. fold o'. now rewrite GP.
    - now rewrite GQ.
    - reflexivity. }
  assert (This : rd L o' i = Ok VNil).
  { rewrite (rd_eq _ _ _ _ Hi). fold K. rewrite Hl. cbn [read_location]. unfold o'. now rewrite mark_unset_bit, Nat.eqb_refl. }
  repeat split; auto.
  - rewrite F2. apply Hs. - rewrite F3; apply Hs. - rewrite F4; apply Hs. - rewrite F5; apply Hs.
  - intros j Hj. destruct (Nat.eq_dec j i) as [->|N]; [eauto|]. rewrite Oth by auto. apply Hr; auto.
Qed.

Lemma write_ok L o i t v : obj_ok L o -> nth_error L i = Some t -> fits t v ->
  exists o', write_location (loc_of t (prims (firstn i L)) (ptrs (firstn i L))) o v = Written o'
    /\ obj_ok L o' /\ o_layout o' = o_layout o
    /\ (forall j, j <> i -> (j < length L)%nat -> rd L o' j = rd L o j)
    /\ (rd L o' i = Ok v \/ (rd L o' i = Ok VNil /\ (32 < prims L)%nat)).
Proof.
  intros Ho Hi Hf. destruct t as [[| |]|].
  - destruct Hf as [->|[z ->]]; cbn [loc_of write_location].
    + destruct (write_unset_ok L o i _ false Ho Hi eq_refl) as (A & B & C & D).
      eexists; split; [reflexivity|]. auto.
    + destruct (write_prim_ok L o i _ false (VInt z) (WInt z) Ho Hi eq_refl eq_refl) as (o' & E & R).
      cbn [loc_of] in *. rewrite E. cbn. eauto.
  - destruct Hf as [->|[d ->]]; cbn [loc_of write_location].
    + destruct (write_unset_ok L o i _ true Ho Hi eq_refl) as (A & B & C & D).
      eexists; split; [reflexivity|]. auto.
    + destruct (write_prim_ok L o i _ true (VDbl d) (WBits d) Ho Hi eq_refl eq_refl) as (o' & E & R).
      cbn [loc_of] in *. rewrite E. cbn. eauto.
  - cbn [loc_of write_location]. destruct Ho as [Hs Hr].
    pose proof (ptrs_bound _ _ _ Hi eq_refl) as Hb.
    destruct (set_ptr_ok L o _ v Hs Hb) as (o' & E & S1 & G1 & G2 & G3 & U & Y).
    rewrite E. cbn [written_of]. exists o'. split; [reflexivity|].
    assert (Oth : forall j, j <> i -> (j < length L)%nat -> rd L o' j = rd L o j).
    { intros j Hj Hlen. destruct (nth_error L j) as [u|] eqn:Ej; [|apply nth_error_None in Ej; lia].
      rewrite !(rd_eq _ _ _ _ Ej). destruct u as [[| |]|]; cbn.
      - now rewrite (prim_set_ext o' o), G3 by auto.
      - now rewrite (prim_set_ext o' o), G3 by auto.
      - apply G2. intros E2. apply Hj. eapply ptrs_inj; eauto.
      - reflexivity. }
    assert (This : rd L o' i = Ok v) by (rewrite (rd_eq _ _ _ _ Hi); exact G1).
    repeat split; auto; try apply S1.
    intros j Hj. destruct (Nat.eq_dec j i) as [->|N]; [eauto|]. rewrite Oth by auto. apply Hr; auto.
  - cbn in Hf. subst v. cbn. exists o. repeat split; try apply Ho; auto.
    left. rewrite (rd_eq _ _ _ _ Hi). reflexivity.
Qed.

(** What a write does when the value does not fit. *)
Lemma write_nofit L o i t v : nth_error L i = Some t -> ~ fits t v ->
  write_location (loc_of t (prims (firstn i L)) (ptrs (firstn i L))) o v
  = (match t with None => Uninitialized | _ => Generalize end).
Proof.
  intros Hi Hf. destruct t as [[| |]|]; cbn in *.
  - destruct v; cbn; auto; exfalso; apply Hf; eauto.
  - destruct v; cbn; auto; exfalso; apply Hf; eauto.
  - tauto.
  - destruct v; cbn; auto; exfalso; apply Hf; eauto.
Qed.

Lemma fits_dec t v : {fits t v} + {~ fits t v}.
Proof.
  destruct t as [[| |]|]; cbn; [| | left; exact I |];
    destruct v; try (left; eauto; fail); right; intros H;
    try destruct H as [H|[? H]]; discriminate.
Qed.

(** * Layout order *)
Definition le_ty (a b : option ftype) : Prop :=
  match a, b with
  | None, _ => True
  | Some t, Some u => u = TObj \/ t = u
  | Some _, None => False
  end.
Definition le_layout (L M : layout) : Prop :=
  length L = length M /\
  forall i t u, nth_error L i = Some t -> nth_error M i = Some u -> le_ty t u.

Lemma le_ty_refl t : le_ty t t. Proof. destruct t; cbn; auto. Qed.
Lemma le_ty_trans a b c : le_ty a b -> le_ty b c -> le_ty a c.
Proof. destruct a as [a|], b as [b|], c as [c|]; cbn; try tauto. intros [->| ->] [->| ->]; auto. Qed.
Lemma le_layout_refl L : le_layout L L.
Proof. split; auto. intros i t u H1 H2. rewrite H1 in H2. injection H2 as <-. apply le_ty_refl. Qed.
Lemma le_layout_trans L M N : le_layout L M -> le_layout M N -> le_layout L N.
Proof.
  intros [E1 H1] [E2 H2]. split; [congruence|]. intros i t u Hi Hu.
  destruct (nth_error M i) as [x|] eqn:Ex.
  - eapply le_ty_trans; eauto.
  - apply nth_error_None in Ex. assert (i < length L)%nat by (apply nth_error_Some; congruence). lia.
Qed.
Lemma le_upd L i t u : nth_error L i = Some t -> le_ty t u -> le_layout L (upd L i u).
Proof.
  intros H Ht. split; [now rewrite upd_length|]. intros j a b Ha Hb.
  destruct (Nat.eq_dec i j) as [<-|N].
  - rewrite nth_upd_same in Hb by (apply nth_error_Some; congruence). injection Hb as <-.
    rewrite H in Ha. injection Ha as <-. exact Ht.
  - rewrite nth_upd_other in Hb by auto. rewrite Ha in Hb. injection Hb as <-. apply le_ty_refl.
Qed.
Lemma fits_le a b v : le_ty a b -> fits a v -> fits b v.
Proof.
  destruct a as [a|], b as [b|]; cbn; try tauto.
  - intros [->| ->]; [intros; exact I|auto].
  - intros _ ->. destruct b; cbn; auto.
Qed.

(** * Classes *)
Definition cls_ok (n : nat) (c : cls) : Prop :=
  c_layouts c <> [] /\ length (c_latest c) = length (c_layouts c)
  /\ (forall k, (k < length (c_layouts c))%nat -> length (layout_of c k) = n)
  /\ (forall k, (k < length (c_layouts c))%nat -> le_layout (layout_of c k) (cur_layout c))
  /\ (forall k, (k < length (c_layouts c))%nat -> nth k (c_latest c) false = Nat.eqb k (cur_idx c)).

Definition extends (c c' : cls) : Prop := exists ls, c_layouts c' = c_layouts c ++ ls.

Lemma extends_refl c : extends c c. Proof. exists []. now rewrite app_nil_r. Qed.
Lemma extends_layout c c' k : extends c c' -> (k < length (c_layouts c))%nat -> layout_of c' k = layout_of c k.
Proof. intros [ls E] H. unfold layout_of. rewrite E. now rewrite app_nth1. Qed.
Lemma extends_len c c' : extends c c' -> (length (c_layouts c) <= length (c_layouts c'))%nat.
Proof. intros [ls E]. rewrite E, app_length. lia. Qed.

Lemma cur_lt n c : cls_ok n c -> (cur_idx c < length (c_layouts c))%nat.
Proof. intros (H & _). unfold cur_idx. destruct (c_layouts c); [congruence|cbn; lia]. Qed.

Lemma add_layout_ok n c L : cls_ok n c -> le_layout (cur_layout c) L ->
  cls_ok n (add_layout c L) /\ cur_layout (add_layout c L) = L /\ extends c (add_layout c L)
  /\ cur_idx (add_layout c L) = length (c_layouts c).
Proof.
  intros Hc Hle. pose proof (cur_lt _ _ Hc) as Hlt. destruct Hc as (H0 & H1 & H2 & H3 & H4).
  assert (Ecur : cur_idx (add_layout c L) = length (c_layouts c)).
  { unfold cur_idx, add_layout. cbn. rewrite app_length. cbn. lia. }
  assert (EL : cur_layout (add_layout c L) = L).
  { unfold cur_layout, layout_of. rewrite Ecur. cbn. rewrite app_nth2 by lia. now rewrite Nat.sub_diag. }
  assert (Elay : forall k, (k < length (c_layouts c))%nat -> layout_of (add_layout c L) k = layout_of c k).
  { intros k Hk. unfold layout_of. cbn. now rewrite app_nth1. }
  assert (ELk : layout_of (add_layout c L) (length (c_layouts c)) = L).
  { rewrite <- Ecur. exact EL. }
  split; [|split; [exact EL|split; [exists [L]; reflexivity|exact Ecur]]].
  unfold cls_ok. rewrite EL. cbn [add_layout c_layouts c_latest]. repeat split.
  - destruct (c_layouts c); discriminate.
  - rewrite !app_length, upd_length. cbn. lia.
  - intros k Hk. rewrite app_length in Hk. cbn in Hk.
    destruct (Nat.eq_dec k (length (c_layouts c))) as [->|].
    + rewrite ELk. destruct Hle as [Hl _]. rewrite <- Hl. apply H2. exact Hlt.
    + rewrite Elay by lia. apply H2. lia.
  - rewrite app_length in H. cbn in H. destruct (Nat.eq_dec k (length (c_layouts c))) as [->|].
    + now rewrite ELk.
    + rewrite Elay by lia. transitivity (length (cur_layout c)); [apply H3; lia|apply Hle].
  - intros i t u. rewrite app_length in H. cbn in H.
    destruct (Nat.eq_dec k (length (c_layouts c))) as [->|].
    + rewrite ELk. apply le_layout_refl.
    + rewrite Elay by lia. eapply le_layout_trans; [apply H3; lia|exact Hle].
  - intros k Hk. rewrite app_length in Hk. cbn in Hk. rewrite Ecur.
    destruct (Nat.eq_dec k (length (c_layouts c))) as [->|N].
    + rewrite Nat.eqb_refl. rewrite app_nth2 by (rewrite upd_length; lia).
      rewrite upd_length, H1, Nat.sub_diag. reflexivity.
    + rewrite app_nth1 by (rewrite upd_length; lia).
      destruct (Nat.eqb_spec k (length (c_layouts c))); [contradiction|].
      destruct (Nat.eq_dec k (cur_idx c)) as [->|N2].
      * erewrite nth_error_nth; [reflexivity|]. apply nth_upd_same. lia.
      * pose proof (H4 k ltac:(lia)) as E. destruct (Nat.eqb_spec k (cur_idx c)); [contradiction|].
        destruct (nth_error (c_latest c) k) as [b|] eqn:Eb.
        -- erewrite nth_error_nth; [|rewrite nth_upd_other by auto; exact Eb].
           erewrite nth_error_nth in E by exact Eb. exact E.
        -- apply nth_error_None in Eb. lia.
Qed.

(** * Transfer *)
Section Transfer.
  Variable n : nat.

  Lemma get_all_ok c o : forall todo i,
    (i + todo = length (layout_of c (o_layout o)))%nat -> readable (layout_of c (o_layout o)) o ->
    exists vs, get_all_fields c o todo i = Ok vs /\ length vs = todo
      /\ forall j x, nth_error vs j = Some x ->
           rd (layout_of c (o_layout o)) o (i + j) = Ok (match x with Some v => v | None => VNil end).
  Proof.
    induction todo as [|todo IH]; intros i Hi Hr.
    - exists []. repeat split. intros [|j]; discriminate.
    - set (L := layout_of c (o_layout o)) in *.
      destruct (IH (S i) ltac:(lia) Hr) as (vs & E & Hl & Hv).
      destruct (Hr i ltac:(lia)) as (v & Ev).
      cbn [get_all_fields]. unfold is_field_set, get_field, get_location. fold L.
      unfold rd in Ev. destruct (nth_error L i) as [t|] eqn:Et; [|apply nth_error_None in Et; lia].
      unfold get_slot in *. rewrite (get_loc _ _ _ Et) in *. cbn [bind] in *.
      set (l := loc_of t (prims (firstn i L)) (ptrs (firstn i L))) in *.
      destruct (is_set_location l o) eqn:Es.
      + rewrite Ev. cbn [bind]. rewrite E. cbn [bind]. eexists; split; [reflexivity|].
        split; [cbn; lia|]. intros [|j] x Hx; cbn in Hx.
        * injection Hx as <-. rewrite Nat.add_0_r. unfold rd, get_slot. rewrite (get_loc _ _ _ Et). exact Ev.
        * replace (i + S j)%nat with (S i + j)%nat by lia. auto.
      + cbn [bind]. rewrite E. cbn [bind]. eexists; split; [reflexivity|].
        split; [cbn; lia|]. intros [|j] x Hx; cbn in Hx.
        * injection Hx as <-. rewrite Nat.add_0_r. unfold rd, get_slot. rewrite (get_loc _ _ _ Et).
          cbn [bind]. fold l. subst l. destruct t as [[| |]|]; cbn in Es |- *; try discriminate; try now rewrite Es.
          reflexivity.
        * replace (i + S j)%nat with (S i + j)%nat by lia. auto.
  Qed.

  Lemma set_field_fits f c o i t v : obj_ok (layout_of c (o_layout o)) o ->
    nth_error (layout_of c (o_layout o)) i = Some t -> fits t v ->
    exists o', set_field (S f) c o i v = Ok (c, o')
      /\ obj_ok (layout_of c (o_layout o)) o' /\ o_layout o' = o_layout o
      /\ (forall j, j <> i -> (j < length (layout_of c (o_layout o)))%nat ->
            rd (layout_of c (o_layout o)) o' j = rd (layout_of c (o_layout o)) o j)
      /\ (rd (layout_of c (o_layout o)) o' i = Ok v
          \/ (rd (layout_of c (o_layout o)) o' i = Ok VNil /\ (32 < prims (layout_of c (o_layout o)))%nat)).
  Proof.
    intros Ho Hi Hf. destruct (write_ok _ o i t v Ho Hi Hf) as (o' & E & R).
    cbn [set_field]. unfold get_location, get_slot. rewrite (get_loc _ _ _ Hi). cbn [bind].
    rewrite E. eauto.
  Qed.

  (** Filling all fields from [i] on, in an object already in layout [L]. *)
  Lemma set_all_ok f c : forall vs o i,
    (i + length vs = length (layout_of c (o_layout o)))%nat ->
    obj_ok (layout_of c (o_layout o)) o ->
    (forall j x t, nth_error vs j = Some x -> nth_error (layout_of c (o_layout o)) (i + j) = Some t ->
        fits t (match x with Some v => v | None => VNil end)) ->
    exists o', set_all_fields (set_field (S f)) c o i vs = Ok (c, o')
      /\ obj_ok (layout_of c (o_layout o)) o' /\ o_layout o' = o_layout o
      /\ (forall j, (j < i)%nat -> rd (layout_of c (o_layout o)) o' j = rd (layout_of c (o_layout o)) o j)
      /\ (forall j x, nth_error vs j = Some x ->
            let v := match x with Some v => v | None => VNil end in
            rd (layout_of c (o_layout o)) o' (i + j) = Ok v
            \/ (rd (layout_of c (o_layout o)) o' (i + j) = Ok VNil
                /\ (32 < prims (layout_of c (o_layout o)))%nat)).
  Proof.
    induction vs as [|x vs IH]; intros o i Hi Ho Hf.
    - exists o. cbn. repeat split; try apply Ho; auto. intros [|j]; discriminate.
    - set (L := layout_of c (o_layout o)) in *. set (v := match x with Some v => v | None => VNil end).
      destruct (nth_error L i) as [t|] eqn:Et; [|apply nth_error_None in Et; cbn in Hi; lia].
      assert (Hv : fits t v) by (apply (Hf 0%nat x t eq_refl); now rewrite Nat.add_0_r).
      destruct (set_field_fits f c o i t v Ho Et Hv) as (o1 & E1 & Ho1 & Hl1 & Hoth & Hthis). fold L in Ho1, Hoth, Hthis.
      destruct (IH o1 (S i)) as (o' & E & Ho' & Hl & Hlow & Hhigh); rewrite ?Hl1; fold L; cbn in Hi; try lia; auto.
      { intros j y u Hy Hu. apply (Hf (S j) y u Hy). now replace (i + S j)%nat with (S i + j)%nat by lia. }
      rewrite Hl1 in *. fold L in Ho', Hlow, Hhigh.
      exists o'. cbn [set_all_fields]. fold v. rewrite E1. cbn [bind fst snd]. rewrite E.
      split; [reflexivity|]. split; [exact Ho'|]. split; [congruence|]. split.
      + intros j Hj. rewrite Hlow by lia. apply Hoth; lia.
      + intros [|j] y Hy; cbn in Hy.
        * injection Hy as <-. rewrite Nat.add_0_r. fold v. rewrite Hlow by lia. exact Hthis.
        * replace (i + S j)%nat with (S i + j)%nat by lia. now apply Hhigh.
  Qed.

  Lemma reset_ok c o k : obj_ok (layout_of c k) (reset_for_layout c o k).
  Proof.
    set (L := layout_of c k).
    assert (Hs : shape L (reset_for_layout c o k)).
    { unfold reset_for_layout. fold L. repeat split; cbn [o_field o_prim o_prims o_fields].
      - unfold ext_prims. now rewrite repeat_length.
      - unfold ext_fields. destruct (Nat.ltb_spec 0 (used_ext_ptr L)); [now rewrite repeat_length|lia]. }
    split; [exact Hs|]. intros i Hi. destruct (nth_error L i) as [t|] eqn:Et; [|apply nth_error_None in Et; lia].
    rewrite (rd_eq _ _ _ _ Et). destruct t as [[| |]|]; cbn; eauto.
    eapply get_ptr_ok; [exact Hs|]. eapply ptrs_bound; eauto.
  Qed.

  Lemma transfer_ok f c o k : cls_ok n c -> (o_layout o < length (c_layouts c))%nat ->
    (k < length (c_layouts c))%nat -> le_layout (layout_of c (o_layout o)) (layout_of c k) ->
    obj_ok (layout_of c (o_layout o)) o ->
    exists o', transfer (set_field (S f)) c o k = Ok (c, o')
      /\ obj_ok (layout_of c k) o' /\ o_layout o' = k
      /\ (forall j v, (j < n)%nat -> rd (layout_of c (o_layout o)) o j = Ok v ->
            rd (layout_of c k) o' j = Ok v
            \/ (rd (layout_of c k) o' j = Ok VNil /\ (32 < prims (layout_of c k))%nat)).
  Proof.
    intros Hc Hlo Hk Hle Ho. set (L := layout_of c (o_layout o)) in *. set (M := layout_of c k) in *.
    assert (HLn : length L = n) by (apply Hc; auto). assert (HMn : length M = n) by (apply Hc; auto).
    destruct (get_all_ok c o (length L) 0%nat ltac:(reflexivity) (proj2 Ho)) as (vs & E & Hl & Hv).
    fold L in Hv. unfold transfer. fold L. rewrite E. cbn [bind].
    destruct (set_all_ok f c vs (reset_for_layout c o k) 0%nat) as (o' & E' & Ho' & Hlay & _ & Hnew).
    - cbn [o_layout reset_for_layout]. fold M. lia.
    - apply reset_ok.
    - cbn [o_layout reset_for_layout]. fold M. cbn. intros j x t Hx Ht.
      destruct (nth_error L j) as [u|] eqn:Eu.
      + eapply fits_le; [eapply Hle; eauto|]. eapply rd_fits; [exact Eu|]. exact (Hv j x Hx).
      + apply nth_error_None in Eu. assert (j < length vs)%nat by (apply nth_error_Some; congruence). lia.
    - cbn [o_layout reset_for_layout] in *. fold M in Ho', Hnew.
      exists o'. rewrite E'. split; [reflexivity|]. split; [exact Ho'|]. split; [exact Hlay|].
      intros j v Hj Hr. destruct (nth_error vs j) as [x|] eqn:Ex; [|apply nth_error_None in Ex; lia].
      pose proof (Hv j x Ex) as R. cbn in R. rewrite Hr in R. injection R as R.
      pose proof (Hnew j x Ex) as N. cbn in N. rewrite <- R in N. exact N.
  Qed.
End Transfer.

(** * Writing a field *)
Lemma spec_type_fits v : fits (Some (spec_type v)) v.
Proof. destruct v; cbn; eauto. Qed.
Lemma not_fits_notnil t v : ~ fits t v -> v <> VNil.
Proof. intros H ->. apply H. destruct t as [[| |]|]; cbn; auto. Qed.
Lemma ftype_eqb_spec a b : reflect (a = b) (ftype_eqb a b).
Proof. destruct a, b; constructor; congruence. Qed.

(** The one way a write can fail: the object's own layout has not seen the field
    written, the class's has, with another kind of value. *)
Definition clash (t u : option ftype) (v : value) : Prop :=
  t = None /\ v <> VNil /\ exists t', u = Some t' /\ t' <> spec_type v.

Lemma clash_dec t u v : clash t u v \/ ~ clash t u v.
Proof.
  unfold clash. destruct t; [right; intros [? _]; discriminate|].
  destruct u as [t'|]; [|right; intros (_ & _ & ? & ? & _); discriminate].
  destruct (ftype_eqb_spec t' (spec_type v)) as [->|N].
  - right. intros (_ & _ & x & [= <-] & H). congruence.
  - destruct v; try (left; split; [reflexivity|split; [discriminate|eauto]]; fail).
    right. intros (_ & H & _). congruence.
Qed.

Lemma add_layout_layouts c L k : (k < length (c_layouts (add_layout c L)))%nat ->
  (k < length (c_layouts c))%nat /\ layout_of (add_layout c L) k = layout_of c k
  \/ layout_of (add_layout c L) k = L.
Proof.
  cbn. rewrite app_length. cbn. intros H. unfold layout_of. cbn.
  destruct (Nat.lt_ge_cases k (length (c_layouts c))).
  - left. split; auto. now rewrite app_nth1.
  - right. rewrite app_nth2 by lia. now replace (k - length (c_layouts c))%nat with 0%nat by lia.
Qed.

Definition has_type (c : cls) (j : nat) (ty : ftype) : Prop :=
  exists k, (k < length (c_layouts c))%nat /\ nth_error (layout_of c k) j = Some (Some ty).
(** The storage types a write of [v] to field [i] can introduce. *)
Definition new_prims (c c' : cls) (i : nat) (v : value) : Prop :=
  forall j ty, has_type c' j ty ->
    has_type c j ty
    \/ (j = i /\ v <> VNil
        /\ (ty = spec_type v \/ (ty = TObj /\ exists t1, has_type c i t1 /\ t1 <> spec_type v))).

Lemma new_prims_refl c i v : new_prims c c i v.
Proof. intros j ty H. now left. Qed.

Lemma relayout_class n c i v t u lo :
  cls_ok n c -> (lo < length (c_layouts c))%nat -> nth_error (layout_of c lo) i = Some t ->
  nth_error (cur_layout c) i = Some u -> ~ fits t v -> ~ clash t u v ->
  exists c', match t with None => with_initialized_field c i (spec_type v) | _ => with_generalized_field c i end = Ok c'
    /\ cls_ok n c' /\ extends c c' /\ cur_idx c' <> lo /\ new_prims c c' i v
    /\ exists u', nth_error (cur_layout c') i = Some u' /\ fits u' v.
Proof.
  intros Hc Hlo Ht Hu Hf Hcl.
  assert (Hle : le_ty t u) by (eapply Hc; eauto).
  pose proof (cur_lt _ _ Hc) as Hcur.
  assert (Hlen : (i < length (cur_layout c))%nat) by (apply nth_error_Some; congruence).
  assert (Hv : v <> VNil) by (eapply not_fits_notnil; eauto).
  assert (Add : forall x, le_ty u x -> fits x v ->
            (forall ty, x = Some ty -> ty = spec_type v \/ (ty = TObj /\ exists t1, has_type c i t1 /\ t1 <> spec_type v)) ->
            cls_ok n (add_layout c (upd (cur_layout c) i x)) /\ extends c (add_layout c (upd (cur_layout c) i x))
            /\ cur_idx (add_layout c (upd (cur_layout c) i x)) <> lo
            /\ new_prims c (add_layout c (upd (cur_layout c) i x)) i v
            /\ exists u', nth_error (cur_layout (add_layout c (upd (cur_layout c) i x))) i = Some u' /\ fits u' v).
  { intros x Hx Hfx Hpx.
    destruct (add_layout_ok n c (upd (cur_layout c) i x) Hc (le_upd _ _ _ _ Hu Hx)) as (A & B & C & D).
    rewrite B, D. repeat split; try apply A; auto; try lia.
    - intros j ty (k & Hk & Hj). destruct (add_layout_layouts c _ k Hk) as [[Hk' E]|E]; rewrite E in Hj.
      + left. exists k. auto.
      + destruct (Nat.eq_dec i j) as [<-|N].
        * rewrite nth_upd_same in Hj by auto. injection Hj as ->. right. auto.
        * rewrite nth_upd_other in Hj by auto. left. exists (cur_idx c). auto.
    - exists x. rewrite nth_upd_same by auto. auto. }
  assert (Same : t <> u -> cur_idx c <> lo).
  { intros N <-. apply N. unfold cur_layout in Hu. congruence. }
  destruct t as [t|].
  - unfold with_generalized_field, get_slot. rewrite Hu. cbn [bind].
    destruct u as [[| |]|]; cbn in Hle; [| | |contradiction].
    + destruct Hle as [Hle|Hle]; [discriminate|]. subst t.
      eexists; split; [reflexivity|]. apply Add; cbn; auto.
      intros ty [= <-]. right. split; auto. exists TInt. split; [exists lo; auto|].
      intros E. apply Hf. rewrite E. apply spec_type_fits.
    + destruct Hle as [Hle|Hle]; [discriminate|]. subst t.
      eexists; split; [reflexivity|]. apply Add; cbn; auto.
      intros ty [= <-]. right. split; auto. exists TDbl. split; [exists lo; auto|].
      intros E. apply Hf. rewrite E. apply spec_type_fits.
    + exists c. split; [reflexivity|]. split; [exact Hc|]. split; [apply extends_refl|].
      split; [|split; [apply new_prims_refl|exists (Some TObj); cbn; auto]].
      apply Same. intros [= ->]. apply Hf. exact I.
  - unfold with_initialized_field, get_slot. rewrite Hu. cbn [bind]. destruct u as [t'|].
    + destruct (ftype_eqb_spec t' (spec_type v)) as [->|N].
      * exists c. split; [reflexivity|]. split; [exact Hc|]. split; [apply extends_refl|].
        split; [|split; [apply new_prims_refl|exists (Some (spec_type v)); split; auto; apply spec_type_fits]].
        apply Same. discriminate.
      * exfalso. apply Hcl. split; [reflexivity|]. split; [eapply not_fits_notnil; eauto|eauto].
    + eexists; split; [reflexivity|]. apply Add; cbn [le_ty]; auto; [apply spec_type_fits|].
      intros ty [= <-]. auto.
Qed.

Lemma rd_weak_trans (P Q : Prop) (r : res value) v : (P -> Q) ->
  (r = Ok v \/ (r = Ok VNil /\ P)) -> (r = Ok v \/ (r = Ok VNil /\ Q)).
Proof. tauto. Qed.

Lemma set_field_ok n f c o i v t u :
  cls_ok n c -> (o_layout o < length (c_layouts c))%nat -> obj_ok (layout_of c (o_layout o)) o ->
  nth_error (layout_of c (o_layout o)) i = Some t -> nth_error (cur_layout c) i = Some u ->
  ~ clash t u v ->
  exists c' o', set_field (S (S f)) c o i v = Ok (c', o')
    /\ cls_ok n c' /\ extends c c' /\ (o_layout o' < length (c_layouts c'))%nat
    /\ obj_ok (layout_of c' (o_layout o')) o' /\ new_prims c c' i v
    /\ (forall j x, (j < n)%nat -> j <> i -> rd (layout_of c (o_layout o)) o j = Ok x ->
          rd (layout_of c' (o_layout o')) o' j = Ok x
          \/ (rd (layout_of c' (o_layout o')) o' j = Ok VNil /\ (32 < prims (layout_of c' (o_layout o')))%nat))
    /\ (rd (layout_of c' (o_layout o')) o' i = Ok v
        \/ (rd (layout_of c' (o_layout o')) o' i = Ok VNil /\ (32 < prims (layout_of c' (o_layout o')))%nat)).
Proof.
  intros Hc Hlo Ho Ht Hu Hcl.
  assert (HLn : length (layout_of c (o_layout o)) = n) by (apply Hc; auto).
  destruct (fits_dec t v) as [Hf|Hf].
  - destruct (set_field_fits (S f) c o i t v Ho Ht Hf) as (o' & E & Ho' & Hl & Hoth & Hthis).
    exists c, o'. rewrite E, Hl. split; [reflexivity|]. split; [exact Hc|]. split; [apply extends_refl|].
    split; [exact Hlo|]. split; [exact Ho'|]. split; [apply new_prims_refl|]. split; [|exact Hthis].
    intros j x Hj Hji Hr. left. rewrite Hoth by (auto; lia). exact Hr.
  - destruct (relayout_class n c i v t u (o_layout o) Hc Hlo Ht Hu Hf Hcl)
      as (c' & E & Hc' & Hext & Hneq & Hnew & u' & Hu' & Hfu).
    pose proof (extends_layout c c' (o_layout o) Hext Hlo) as EL.
    pose proof (extends_len _ _ Hext) as Hle.
    pose proof (cur_lt _ _ Hc') as Hcur.
    assert (Hlo' : (o_layout o < length (c_layouts c'))%nat) by lia.
    destruct (transfer_ok n f c' o (cur_idx c') Hc' Hlo' Hcur) as (o1 & E1 & Ho1 & Hl1 & Hr1).
    { apply Hc'; auto. }
    { rewrite EL. exact Ho. }
    rewrite EL in Hr1.
    rewrite <- Hl1 in Ho1, Hr1.
    destruct (write_ok _ o1 i u' v Ho1) as (o2 & E2 & Ho2 & Hl2 & Hoth & Hthis); [rewrite Hl1; exact Hu'|exact Hfu|].
    rewrite <- Hl2 in Ho2.
    exists c', o2. split.
    { cbn [set_field]. unfold get_location at 1, get_slot. rewrite (get_loc _ _ _ Ht). cbn [bind].
      rewrite (write_nofit _ o i t v Ht Hf).
      assert (Ectx : forall r, r = Ok c' ->
         (c'0 <- r ;; if Nat.eqb (cur_idx c'0) (o_layout o) then Err AssertionError
           else p <- transfer (set_field (S f)) c'0 o (cur_idx c'0) ;;
             l' <- get_location (fst p) (snd p) i ;;
             match write_location l' (snd p) v with
             | Written o' => Ok (fst p, o')
             | Failed e => Err e
             | Uninitialized | Generalize => Err PyException
             end) = Ok (c', o2)).
      { intros r ->. cbn [bind]. destruct (Nat.eqb_spec (cur_idx c') (o_layout o)); [contradiction|].
        change (fix set_field (fuel : nat) (c0 : cls) (o0 : obj) (i0 : nat) (v0 : value) {struct fuel} := _) with set_field.
        rewrite E1. cbn [bind fst snd]. unfold get_location, get_slot.
        rewrite Hl1 at 1. change (nth_error (storage_locations (layout_of c' (cur_idx c'))) i) with (nth_error (storage_locations (cur_layout c')) i).
        rewrite (get_loc _ _ _ Hu'). cbn [bind].
        unfold cur_layout. rewrite <- Hl1. rewrite E2. reflexivity. }
      destruct t as [t|]; apply Ectx; exact E. }
    rewrite Hl2 in *. rewrite Hl1 in *.
    assert (HMn : length (layout_of c' (cur_idx c')) = n) by (apply Hc'; auto).
    split; [exact Hc'|]. split; [exact Hext|]. split; [exact Hcur|]. split; [exact Ho2|].
    split; [exact Hnew|]. split; [|exact Hthis].
    intros j x Hj Hji Hr. rewrite Hoth by (auto; lia). apply Hr1; auto.
Qed.

Lemma set_field_clash n f c o i v t u :
  cls_ok n c -> (o_layout o < length (c_layouts c))%nat -> obj_ok (layout_of c (o_layout o)) o ->
  nth_error (layout_of c (o_layout o)) i = Some t -> nth_error (cur_layout c) i = Some u ->
  clash t u v -> set_field (S f) c o i v = Err AssertionError.
Proof.
  intros Hc Hlo Ho Ht Hu (-> & Hv & t' & -> & Hn).
  cbn [set_field]. unfold get_location at 1, get_slot. rewrite (get_loc _ _ _ Ht). cbn [bind].
  assert (Hf : ~ fits None v) by (cbn; congruence).
  rewrite (write_nofit _ o i None v Ht Hf).
  unfold with_initialized_field, get_slot. rewrite Hu. cbn [bind].
  destruct (ftype_eqb_spec t' (spec_type v)); [contradiction|reflexivity].
Qed.

(** * Populations *)
Definition agree (numeric : list nat) (r : res value) (v : value) : Prop :=
  r = Ok v \/ (r = Ok VNil /\ (32 < length numeric)%nat).

Definition obj_inv numeric n (c : cls) (o : obj) (rec : list value) : Prop :=
  (o_layout o < length (c_layouts c))%nat /\ obj_ok (layout_of c (o_layout o)) o
  /\ length rec = n
  /\ forall i, (i < n)%nat -> agree numeric (rd (layout_of c (o_layout o)) o i) (nth i rec VNil).
Definition numeric_ok (numeric : list nat) (c : cls) : Prop :=
  forall k i t, (k < length (c_layouts c))%nat -> nth_error (layout_of c k) i = Some t ->
    is_prim t = true -> In i numeric.
Definition winv numeric n (w : world) (A : records) : Prop :=
  cls_ok n (w_cls w) /\ numeric_ok numeric (w_cls w) /\ length (w_objs w) = length A
  /\ forall k o, nth_error (w_objs w) k = Some o -> obj_inv numeric n (w_cls w) o (nth k A []).

Lemma prims_filter : forall L s, prims L = length (filter (fun i => is_prim (nth (i - s) L None)) (seq s (length L))).
Proof.
  induction L as [|t L IH]; intros s; [reflexivity|].
  cbn [length seq filter]. rewrite Nat.sub_diag. change (nth 0 (t :: L) None) with t.
  assert (E : filter (fun i => is_prim (nth (i - s) (t :: L) None)) (seq (S s) (length L))
              = filter (fun i => is_prim (nth (i - S s) L None)) (seq (S s) (length L))).
  { apply filter_ext_in. intros a Ha. apply in_seq in Ha.
    replace (a - s)%nat with (S (a - S s)) by lia. reflexivity. }
  rewrite E. destruct t as [[| |]|]; cbn [is_prim prim_locations_used length]; rewrite (IH (S s)); reflexivity.
Qed.

Lemma prims_numeric numeric c k : numeric_ok numeric c -> (k < length (c_layouts c))%nat ->
  (prims (layout_of c k) <= length numeric)%nat.
Proof.
  intros H Hk. rewrite (prims_filter _ 0%nat).
  apply NoDup_incl_length; [apply NoDup_filter, seq_NoDup|].
  intros i Hi. apply filter_In in Hi. destruct Hi as [Hs Hp]. apply in_seq in Hs.
  rewrite Nat.sub_0_r in Hp. destruct (nth_error (layout_of c k) i) as [t|] eqn:E.
  - erewrite nth_error_nth in Hp by eauto. eapply H; eauto.
  - apply nth_error_None in E. lia.
Qed.

Lemma obj_inv_extends numeric n c c' o rec : extends c c' -> obj_inv numeric n c o rec -> obj_inv numeric n c' o rec.
Proof.
  intros He (H1 & H2 & H3 & H4). pose proof (extends_len _ _ He).
  unfold obj_inv. rewrite (extends_layout _ _ _ He H1). repeat split; auto; try lia; apply H2.
Qed.

Lemma agree_weak numeric c k (r : res value) x v : numeric_ok numeric c -> (k < length (c_layouts c))%nat ->
  agree numeric (Ok x) v -> (r = Ok x \/ (r = Ok VNil /\ (32 < prims (layout_of c k))%nat)) -> agree numeric r v.
Proof.
  intros Hn Hk Ha Hr. pose proof (prims_numeric _ _ _ Hn Hk).
  destruct Hr as [->|[-> Hp]]; [exact Ha|]. right. split; auto. lia.
Qed.

Lemma nth_put_same {A} (l : list A) k x d : (k < length l)%nat -> nth k (put_at l k x) d = x.
Proof. intros H. rewrite <- upd_put_at. apply nth_error_nth. now apply nth_upd_same. Qed.
Lemma nth_put_other {A} (l : list A) k x d j : k <> j -> nth j (put_at l k x) d = nth j l d.
Proof.
  intros H. rewrite <- upd_put_at. destruct (nth_error l j) as [y|] eqn:E.
  - rewrite (nth_error_nth _ _ _ E). apply nth_error_nth. now rewrite nth_upd_other.
  - rewrite !nth_overflow; auto; [|rewrite upd_length]; now apply nth_error_None.
Qed.

Lemma winv_put numeric n w A k c' o' rec : winv numeric n w A -> (k < length A)%nat ->
  cls_ok n c' -> numeric_ok numeric c' -> extends (w_cls w) c' -> obj_inv numeric n c' o' rec ->
  winv numeric n (put_obj w k (c', o')) (put_at A k rec).
Proof.
  intros (H1 & H2 & H3 & H4) Hk Hc Hn He Ho. unfold winv, put_obj. cbn [w_cls w_objs fst snd].
  split; [exact Hc|split; [exact Hn|split]].
  - rewrite upd_length, put_at_length. exact H3.
  - intros j o Hj. destruct (Nat.eq_dec k j) as [<-|N].
    + rewrite nth_upd_same in Hj by lia. injection Hj as <-. now rewrite nth_put_same.
    + rewrite nth_upd_other in Hj by auto. rewrite nth_put_other by auto.
      eapply obj_inv_extends; eauto.
Qed.

Lemma put_at_nth_same {A} (l : list A) k d : put_at l k (nth k l d) = l.
Proof.
  rewrite <- upd_put_at. destruct (nth_error l k) eqn:E.
  - apply upd_same. now rewrite (nth_error_nth _ _ _ E).
  - apply nth_error_None in E. revert k E. induction l as [|x l IH]; intros [|k] E; cbn in *; auto; try lia.
    f_equal. apply IH. lia.
Qed.

Lemma winv_new numeric n w A : winv numeric n w A -> winv numeric n (w_new w) (A ++ [repeat VNil n]).
Proof.
  intros (H1 & H2 & H3 & H4). unfold winv, w_new. cbn [w_cls w_objs].
  split; [exact H1|split; [exact H2|split]].
  - rewrite !app_length. cbn. lia.
  - intros k o Hk. destruct (Nat.lt_ge_cases k (length A)).
    + rewrite nth_error_app1 in Hk by lia. rewrite app_nth1 by lia. auto.
    + rewrite nth_error_app2 in Hk by lia. rewrite app_nth2 by lia. rewrite H3 in Hk.
      destruct (k - length A)%nat as [|d]; cbn in Hk; [|destruct d; discriminate].
      injection Hk as <-. cbn [nth]. pose proof (cur_lt _ _ H1) as Hcur.
      set (c := w_cls w) in *. unfold obj_inv. cbn [o_layout new_object]. fold (cur_layout c).
      assert (HLn : length (cur_layout c) = n) by (apply H1; auto).
      assert (Hrd : forall i, (i < n)%nat -> rd (cur_layout c) (new_object c) i = Ok VNil).
      { intros i Hi. destruct (nth_error (cur_layout c) i) as [t|] eqn:Et; [|apply nth_error_None in Et; lia].
        rewrite (rd_eq _ _ _ _ Et). destruct t as [[| |]|]; try reflexivity.
        cbn [loc_of read_location]. pose proof (ptrs_bound _ _ _ Et eq_refl) as Hb.
        unfold get_ptr. unfold new_object. cbn [o_field o_fields].
        unfold ext_fields, used_ext_ptr, get_slot.
        destruct (Nat.ltb_spec (ptrs (firstn i (cur_layout c))) NUMBER_OF_POINTER_FIELDS).
        - rewrite nth_error_repeat by auto. reflexivity.
        - destruct (Nat.ltb_spec 0 (ptrs (cur_layout c) - NUMBER_OF_POINTER_FIELDS)); [|lia].
          rewrite nth_error_repeat by lia. reflexivity. }
      repeat split; auto.
      * unfold new_object. cbn [o_prims]. unfold ext_prims. now rewrite repeat_length.
      * unfold new_object. cbn [o_fields]. unfold ext_fields.
        destruct (Nat.ltb_spec 0 (used_ext_ptr (cur_layout c))); [now rewrite repeat_length|lia].
      * intros i Hi. rewrite Hrd by lia. eauto.
      * now rewrite repeat_length.
      * intros i Hi. left. rewrite Hrd by auto. f_equal. rewrite nth_repeat. reflexivity.
Qed.

Lemma winv_empty numeric n : winv numeric n (new_world n) [].
Proof.
  unfold winv, new_world. cbn [w_cls w_objs].
  assert (H4 : forall k o, nth_error (@nil obj) k = Some o -> obj_inv numeric n (new_class n) o (nth k [] []))
    by (intros [|k] o H; discriminate).
  split; [|split; [|split; [reflexivity|exact H4]]]; clear H4.
  1: repeat split.
  - discriminate.
  - intros k Hk. cbn in Hk. destruct k; [|lia]. cbn. now rewrite repeat_length.
  - cbn in H. destruct k; [|lia]. reflexivity.
  - intros i t u. cbn in H. destruct k; [|lia]. intros Ht Hu. unfold cur_layout, layout_of in Hu. cbn in *.
    rewrite Ht in Hu. injection Hu as <-. apply le_ty_refl.
  - intros k Hk. cbn in Hk. destruct k; [|lia]. reflexivity.
  - intros k i t Hk Ht Hp. cbn in Hk. destruct k; [|lia]. cbn in Ht.
    apply nth_error_In in Ht. apply repeat_spec in Ht. subst t. discriminate.
Qed.

Lemma winv_obj numeric n w A k : winv numeric n w A -> (k < length A)%nat ->
  exists o, nth_error (w_objs w) k = Some o /\ obj_inv numeric n (w_cls w) o (nth k A []).
Proof.
  intros (H1 & H2 & H3 & H4) Hk. destruct (nth_error (w_objs w) k) as [o|] eqn:E; [eauto|].
  apply nth_error_None in E. lia.
Qed.

Definition numeric_write (numeric : list nat) (i : nat) (v : value) : Prop := word_sized v -> In i numeric.

Lemma numeric_new numeric c c' i v : numeric_ok numeric c -> new_prims c c' i v ->
  numeric_write numeric i v -> numeric_ok numeric c'.
Proof.
  intros Hn Hp Hw k j t Hk Hj Ht. destruct t as [ty|]; [|discriminate].
  destruct (Hp j ty) as [(k0 & A & B)|(-> & Hv & [->|[-> _]])]; [exists k; auto|eauto| |discriminate].
  apply Hw. destruct v; try discriminate; exact I.
Qed.

Lemma w_set_ok numeric n f w A k i v o t u : winv numeric n w A -> (k < length A)%nat -> (i < n)%nat ->
  numeric_write numeric i v -> nth_error (w_objs w) k = Some o ->
  nth_error (layout_of (w_cls w) (o_layout o)) i = Some t -> nth_error (cur_layout (w_cls w)) i = Some u ->
  ~ clash t u v ->
  exists w', w_set (S (S f)) w k i v = Ok w' /\ winv numeric n w' (put_at A k (put_at (nth k A []) i v)).
Proof.
  intros Hw Hk Hi Hn Ho Ht Hu Hcl. pose proof Hw as (H1 & H2 & H3 & H4).
  destruct (H4 k o Ho) as (I1 & I2 & I3 & I4).
  destruct (set_field_ok n f _ o i v t u H1 I1 I2 Ht Hu Hcl)
    as (c' & o' & E & Hc' & He & Hl' & Ho' & Hp & Hoth & Hthis).
  pose proof (numeric_new _ _ _ _ _ H2 Hp Hn) as Hn'.
  exists (put_obj w k (c', o')). split.
  - unfold w_set, get_obj, get_slot. rewrite Ho. cbn [bind]. rewrite E. reflexivity.
  - apply winv_put; auto. split; [exact Hl'|]. split; [exact Ho'|]. split; [now rewrite put_at_length|].
    intros j Hj. destruct (Nat.eq_dec i j) as [<-|N].
    + rewrite nth_put_same by lia. eapply agree_weak; eauto. now left.
    + rewrite nth_put_other by auto. destruct (I4 j Hj) as [R|[R B]].
      * eapply agree_weak; eauto. now left.
      * eapply agree_weak; eauto. now right.
Qed.

(** Where the locations of an object in a reachable population stand. *)
Lemma winv_types numeric n w A k i : winv numeric n w A -> (k < length A)%nat -> (i < n)%nat ->
  exists o t u, nth_error (w_objs w) k = Some o
    /\ nth_error (layout_of (w_cls w) (o_layout o)) i = Some t /\ nth_error (cur_layout (w_cls w)) i = Some u.
Proof.
  intros Hw Hk Hi. destruct (winv_obj _ _ _ _ _ Hw Hk) as (o & Ho & (I1 & I2 & _)).
  destruct Hw as (H1 & _). pose proof (cur_lt _ _ H1) as Hcur.
  assert (length (layout_of (w_cls w) (o_layout o)) = n) by (apply H1; auto).
  assert (length (cur_layout (w_cls w)) = n) by (apply H1; auto).
  destruct (nth_error (layout_of (w_cls w) (o_layout o)) i) as [t|] eqn:E1; [|apply nth_error_None in E1; lia].
  destruct (nth_error (cur_layout (w_cls w)) i) as [u|] eqn:E2; [|apply nth_error_None in E2; lia].
  exists o, t, u. auto.
Qed.

Lemma w_set_result numeric n f w A k i v w' : winv numeric n w A -> (k < length A)%nat -> (i < n)%nat ->
  numeric_write numeric i v -> w_set (S (S f)) w k i v = Ok w' ->
  winv numeric n w' (put_at A k (put_at (nth k A []) i v)).
Proof.
  intros Hw Hk Hi Hn E. destruct (winv_types _ _ _ _ _ _ Hw Hk Hi) as (o & t & u & Ho & Ht & Hu).
  destruct (clash_dec t u v) as [C|C].
  - pose proof Hw as (H1 & H2 & H3 & H4). destruct (H4 k o Ho) as (I1 & I2 & I3 & I4).
    unfold w_set, get_obj, get_slot in E. rewrite Ho in E. cbn [bind] in E.
    rewrite (set_field_clash n (S f) _ o i v t u H1 I1 I2 Ht Hu C) in E. discriminate.
  - destruct (w_set_ok _ _ f _ _ _ _ _ _ _ _ Hw Hk Hi Hn Ho Ht Hu C) as (w2 & E2 & R).
    rewrite E in E2. injection E2 as <-. exact R.
Qed.

(** Synchronising with the class. *)
Lemma send_sync_ok numeric n f w A k : winv numeric n w A -> (k < length A)%nat ->
  exists w' o', w_send (S f) w k = Ok w' /\ winv numeric n w' A /\ w_cls w' = w_cls w
    /\ nth_error (w_objs w') k = Some o' /\ o_layout o' = cur_idx (w_cls w).
Proof.
  intros Hw Hk. destruct (winv_obj _ _ _ _ _ Hw Hk) as (o & Ho & (I1 & I2 & I3 & I4)).
  pose proof Hw as (H1 & H2 & H3 & H4). pose proof (cur_lt _ _ H1) as Hcur.
  unfold w_send, get_obj, get_slot. rewrite Ho. cbn [bind]. unfold send_sync.
  assert (Hlat : nth (o_layout o) (c_latest (w_cls w)) false = Nat.eqb (o_layout o) (cur_idx (w_cls w))) by (apply H1; auto).
  rewrite Hlat.
  destruct (Nat.eqb_spec (o_layout o) (cur_idx (w_cls w))) as [E|N].
  - cbn [bind]. exists (put_obj w k (w_cls w, o)), o. split; [reflexivity|].
    assert (W : winv numeric n (put_obj w k (w_cls w, o)) (put_at A k (nth k A []))).
    { apply winv_put; auto; [apply extends_refl]. }
    rewrite put_at_nth_same in W. split; [exact W|split; [reflexivity|split; auto]].
    cbn. apply nth_upd_same. lia.
  - unfold update_layout_to_match_class.
    assert (L1 : length (layout_of (w_cls w) (o_layout o)) = n) by (apply H1; auto).
    assert (L2 : length (cur_layout (w_cls w)) = n) by (apply H1; auto).
    rewrite L1, L2, Nat.eqb_refl. cbn [negb].
    destruct (Nat.eqb_spec (o_layout o) (cur_idx (w_cls w))); [contradiction|]. cbn [negb].
    destruct (transfer_ok n f (w_cls w) o (cur_idx (w_cls w)) H1 I1 Hcur) as (o' & E & Ho' & Hl' & Hr); auto.
    { apply H1; auto. }
    rewrite E. cbn [bind]. exists (put_obj w k (w_cls w, o')), o'. split; [reflexivity|].
    assert (W : winv numeric n (put_obj w k (w_cls w, o')) (put_at A k (nth k A []))).
    { apply winv_put; [auto|auto|auto|auto|apply extends_refl|]. unfold obj_inv. rewrite Hl'. repeat split; auto; try apply Ho'.
      intros i Hi. destruct (I4 i Hi) as [R|[R B]].
      - eapply agree_weak; eauto. now left.
      - eapply agree_weak; eauto. now right. }
    rewrite put_at_nth_same in W. split; [exact W|split; [reflexivity|split; auto]].
    cbn. apply nth_upd_same. lia.
Qed.

Lemma w_set_fits numeric n f w A k i v o t : winv numeric n w A -> (k < length A)%nat -> (i < n)%nat ->
  nth_error (w_objs w) k = Some o -> nth_error (layout_of (w_cls w) (o_layout o)) i = Some t -> fits t v ->
  exists w', w_set (S f) w k i v = Ok w' /\ winv numeric n w' (put_at A k (put_at (nth k A []) i v)).
Proof.
  intros Hw Hk Hi Ho Ht Hf. pose proof Hw as (H1 & H2 & H3 & H4).
  destruct (H4 k o Ho) as (I1 & I2 & I3 & I4).
  destruct (set_field_fits f (w_cls w) o i t v I2 Ht Hf) as (o' & E & Ho' & Hl & Hoth & Hthis).
  assert (HLn : length (layout_of (w_cls w) (o_layout o)) = n) by (apply H1; auto).
  exists (put_obj w k (w_cls w, o')). split.
  - unfold w_set, get_obj, get_slot. rewrite Ho. cbn [bind]. rewrite E. reflexivity.
  - apply winv_put; [auto|auto|auto|auto|apply extends_refl|]. unfold obj_inv. rewrite Hl. split; [exact I1|]. split; [exact Ho'|].
    split; [now rewrite put_at_length|].
    intros j Hj. destruct (Nat.eq_dec i j) as [<-|N].
    + rewrite nth_put_same by lia. eapply agree_weak; eauto. now left.
    + rewrite nth_put_other by auto. rewrite Hoth by (auto; lia). auto.
Qed.

(** In-place increment: on any state whatever, success means read, add, write. *)
Lemma inc_add m v r : prim_inc m v = Ok r -> prim_add m v (VInt 1) = Ok r.
Proof.
  destruct v; cbn; try discriminate.
  - unfold int_inc, int_add. cbn. destruct m; cbn; [|auto]. destruct (fits_word (z + 1)); auto.
  - unfold big_inc. intros [= <-]. reflexivity.
  - unfold dbl_inc, dbl_add. intros [= <-]. destruct m; reflexivity.
Qed.

Lemma mark_set_noop o mk : is_primitive_set o mk = true -> mark_prim_as_set o mk = o.
Proof. unfold is_primitive_set, mark_prim_as_set. destruct (_ =? _); [discriminate|reflexivity]. Qed.

Lemma set_prim_used o k w o' : set_prim o k w = Ok o' -> o_used o' = o_used o.
Proof.
  unfold set_prim. destruct (Nat.ltb _ _); destruct (set_slot _ _ _); cbn; try discriminate;
    now intros [= <-].
Qed.

Lemma w_inc_set m w k i r w' f : w_inc m w k i = Ok (r, w') ->
  exists v, w_get w k i = Ok v /\ prim_add m v (VInt 1) = Ok r /\ w_set (S f) w k i r = Ok w'.
Proof.
  unfold w_inc, w_get, w_set, get_obj, get_slot. destruct (nth_error (w_objs w) k) as [o|]; [|discriminate].
  cbn [bind]. unfold inc_field, get_field. cbn [set_field]. unfold get_location, get_slot.
  destruct (nth_error _ i) as [l|]; [|discriminate]. cbn [bind].
  destruct l as [|[|] a|a]; cbn [inc_location read_location write_location].
  - discriminate.
  - destruct (is_primitive_set o (mask a)) eqn:Es; [|discriminate].
    destruct (get_prim o a) as [[z|d]|] eqn:Eg; cbn [bind]; try discriminate.
    cbv zeta. remember (fadd d (float_of_Z 1)) as r1 eqn:Er1.
    destruct (set_prim o a (WBits r1)) as [o'|] eqn:Ep; cbn [bind]; try discriminate.
    intros [= <- <-]. exists (VDbl d). split; [reflexivity|].
    split; [subst r1; exact (inc_add m (VDbl d) _ eq_refl)|].
    rewrite Ep. cbn [bind written_of]. rewrite mark_set_noop; [reflexivity|].
    rewrite (prim_set_ext o' o); [exact Es|]. eapply set_prim_used; eauto.
  - destruct (is_primitive_set o (mask a)) eqn:Es; [|discriminate].
    destruct (get_prim o a) as [[z|d]|] eqn:Eg; cbn [bind]; try discriminate.
    destruct (ovfcheck m (z + 1)) as [r'|] eqn:Eo; [|discriminate].
    destruct (set_prim o a (WInt r')) as [o'|] eqn:Ep; cbn [bind]; try discriminate.
    intros [= <- <-]. exists (VInt z). split; [reflexivity|].
    split. { apply inc_add. cbn. unfold int_inc. now rewrite Eo. }
    rewrite Ep. cbn [bind written_of]. rewrite mark_set_noop; [reflexivity|].
    rewrite (prim_set_ext o' o); [exact Es|]. eapply set_prim_used; eauto.
  - destruct (get_ptr o a) as [v|]; cbn [bind]; try discriminate.
    destruct (prim_inc m v) as [r'|] eqn:Er; cbn [bind]; try discriminate.
    destruct (set_ptr o a r') as [o'|] eqn:Ep; cbn [bind]; try discriminate.
    intros [= <- <-]. exists v. split; [reflexivity|]. split; [now apply inc_add|].
    rewrite Ep. reflexivity.
Qed.

(** The increment keeps the invariant. *)
Lemma w_inc_result numeric n m w A k i r w' : winv numeric n w A -> (k < length A)%nat -> (i < n)%nat ->
  w_inc m w k i = Ok (r, w') ->
  winv numeric n w' (put_at A k (put_at (nth k A []) i (plus_one m (field A k i)))).
Proof.
  intros Hw Hk Hi E. destruct (w_inc_set m w k i r w' 1 E) as (v & Ev & Ea & Es).
  destruct (winv_obj _ _ _ _ _ Hw Hk) as (o & Ho & (I1 & I2 & I3 & I4)).
  pose proof Hw as (H1 & H2 & _).
  assert (Rv : rd (layout_of (w_cls w) (o_layout o)) o i = Ok v).
  { unfold w_get, get_obj, get_slot in Ev. rewrite Ho in Ev. exact Ev. }
  assert (Ef : v = field A k i).
  { destruct (I4 i Hi) as [R|[R _]]; unfold field; [congruence|]. rewrite Rv in R. injection R as ->. discriminate. }
  unfold plus_one. rewrite <- Ef, Ea.
  destruct (nth_error (layout_of (w_cls w) (o_layout o)) i) as [t|] eqn:Et.
  2:{ apply nth_error_None in Et. destruct H1 as (_ & _ & Hn & _). rewrite Hn in Et by auto. lia. }
  assert (Hfit : fits t r).
  { unfold w_inc, get_obj, get_slot in E. rewrite Ho in E. cbn [bind] in E.
    unfold inc_field, get_location, get_slot in E. rewrite (get_loc _ _ _ Et) in E. cbn [bind] in E.
    destruct t as [[| |]|]; cbn [loc_of inc_location] in E; [| |exact I|discriminate].
    - destruct (is_primitive_set _ _); [|discriminate]. destruct (get_prim _ _) as [[|]|]; try discriminate.
      cbn [bind] in E. destruct (ovfcheck _ _); [|discriminate]. destruct (set_prim _ _ _); [|discriminate].
      injection E as <- _. right. eauto.
    - destruct (is_primitive_set _ _); [|discriminate]. destruct (get_prim _ _) as [[|]|]; try discriminate.
      cbn [bind] in E. cbv zeta in E. remember (fadd d (float_of_Z 1)) as r1.
      destruct (set_prim _ _ _); [|discriminate]. cbn [bind] in E.
      injection E as <- _. right. eauto. }
  destruct (w_set_fits numeric n 1 w A k i r o t Hw Hk Hi Ho Et Hfit) as (w2 & E2 & R).
  rewrite Es in E2. injection E2 as <-. exact R.
Qed.

(** The increment succeeds on numbers, the largest Integer excepted. *)
Lemma w_inc_ok numeric n m w A k i v : winv numeric n w A -> (k < length A)%nat -> (i < n)%nat ->
  w_get w k i = Ok v ->
  (exists z, v = VInt z /\ (m = Translated -> word_min <= z < word_max)) \/ (exists z, v = VBig z) \/ (exists d, v = VDbl d) ->
  exists r w', w_inc m w k i = Ok (r, w').
Proof.
  intros Hw Hk Hi Ev Hv. destruct (winv_obj _ _ _ _ _ Hw Hk) as (o & Ho & (I1 & I2 & I3 & I4)).
  pose proof Hw as (H1 & H2 & _).
  destruct (nth_error (layout_of (w_cls w) (o_layout o)) i) as [t|] eqn:Et.
  2:{ apply nth_error_None in Et. destruct H1 as (_ & _ & Hn & _). rewrite Hn in Et by auto. lia. }
  unfold w_get, w_inc, get_obj, get_slot in *. rewrite Ho in *. cbn [bind] in *.
  unfold get_field, inc_field, get_location, get_slot in *. rewrite (get_loc _ _ _ Et) in *. cbn [bind] in *.
  destruct t as [[| |]|]; cbn [loc_of inc_location read_location] in *.
  - destruct (is_primitive_set _ _); [|injection Ev as <-; destruct Hv as [(? & ? & _)|[[? ?]|[? ?]]]; discriminate].
    destruct (get_prim _ _) as [[z|d]|]; cbn [bind word_value] in *; try discriminate. injection Ev as <-.
    assert (O : exists r, ovfcheck m (z + 1) = Some r).
    { destruct Hv as [(z' & [= <-] & Hz)|[[? ?]|[? ?]]]; try discriminate.
      destruct m; cbn; [|eauto]. specialize (Hz eq_refl). unfold fits_word.
      rewrite (proj2 (Z.leb_le _ _)), (proj2 (Z.leb_le _ _)) by lia. cbn. eauto. }
    destruct O as [r O]. rewrite O.
    destruct (set_prim_ok _ o (prims (firstn i (layout_of (w_cls w) (o_layout o)))) (WInt r) (proj1 I2)) as (o' & E & _).
    { eapply prims_bound; eauto. }
    rewrite E. cbn. eauto.
  - destruct (is_primitive_set _ _); [|injection Ev as <-; destruct Hv as [(? & ? & _)|[[? ?]|[? ?]]]; discriminate].
    destruct (get_prim _ _) as [[z|d]|]; cbn [bind word_value] in *; try discriminate.
    destruct (set_prim_ok _ o (prims (firstn i (layout_of (w_cls w) (o_layout o)))) (WBits (fadd d (float_of_Z 1))) (proj1 I2)) as (o' & E & _).
    { eapply prims_bound; eauto. }
    rewrite E. cbn. eauto.
  - rewrite Ev. cbn [bind].
    assert (O : exists r, prim_inc m v = Ok r).
    { destruct Hv as [(z & -> & _)|[[z ->]|[d ->]]]; cbn; unfold int_inc; try destruct (ovfcheck _ _); eauto;
        eexists; reflexivity. }
    destruct O as [r O]. rewrite O. cbn [bind].
    destruct (set_ptr_ok _ o (ptrs (firstn i (layout_of (w_cls w) (o_layout o)))) r (proj1 I2)) as (o' & E & _).
    { eapply ptrs_bound; eauto. }
    rewrite E. cbn. eauto.
  - injection Ev as <-. destruct Hv as [(? & ? & _)|[[? ?]|[? ?]]]; discriminate.
Qed.

(** * Histories *)
Lemma fexec_inv numeric n m f w A op w' : winv numeric n w A -> fvalid n (length A) op ->
  (forall k i v, op = FSet k i v -> word_sized v -> In i numeric) ->
  fexec m (S (S f)) w op = Ok w' -> winv numeric n w' (fspec_step m n A op).
Proof.
  intros Hw Hv Hn E. destruct op as [|k i v|k i|k]; cbn [fexec fspec_step fvalid] in *.
  - injection E as <-. now apply winv_new.
  - destruct Hv as [Hk Hi]. eapply w_set_result; eauto. intros S. eapply Hn; eauto.
  - destruct Hv as [Hk Hi]. destruct (w_inc m w k i) as [[r w2]|] eqn:Ei; [|discriminate].
    injection E as <-. eapply w_inc_result; eauto.
  - destruct (send_sync_ok numeric n (S f) w A k Hw Hv) as (w2 & o & E2 & W & _).
    rewrite E in E2. injection E2 as <-. exact W.
Qed.

Lemma fspec_length m n A op : length (fspec_step m n A op) = match op with FNew => S (length A) | _ => length A end.
Proof. destruct op; cbn; rewrite ?app_length, ?put_at_length; cbn; lia. Qed.

Lemma frun_inv numeric n m f ops : forall w A w', winv numeric n w A -> fvalid_history n (length A) ops ->
  (forall k i v, In (FSet k i v) ops -> word_sized v -> In i numeric) ->
  frun m (S (S f)) w ops = Ok w' -> winv numeric n w' (fspec_run m n A ops).
Proof.
  induction ops as [|op ops IH]; intros w A w' Hw Hv Hn E; cbn [frun fspec_run fvalid_history] in *.
  - now injection E as <-.
  - destruct Hv as [Hv Ht]. destruct (fexec m (S (S f)) w op) as [w1|] eqn:E1; [|discriminate]. cbn [bind] in E.
    eapply IH; [eapply fexec_inv; eauto| | |exact E].
    + intros k i v -> W. apply (Hn k i v); auto. now left.
    + rewrite fspec_length. destruct op; exact Ht.
    + intros k i v H W. apply (Hn k i v); auto. now right.
Qed.

Lemma winv_read numeric n w A k i : winv numeric n w A -> (k < length A)%nat -> (i < n)%nat ->
  agree numeric (w_get w k i) (field A k i).
Proof.
  intros Hw Hk Hi. destruct (winv_obj _ _ _ _ _ Hw Hk) as (o & Ho & (I1 & I2 & I3 & I4)).
  unfold w_get, get_obj, get_slot. rewrite Ho. cbn [bind]. exact (I4 i Hi).
Qed.

(** * Which kinds of values the layouts know about *)
(** Every storage type of field [i] comes from a value written to that field, or from
    two values of different kinds. *)
Definition kinds (past : nat -> value -> Prop) (c : cls) : Prop :=
  forall i ty, has_type c i ty ->
    exists v1, past i v1 /\ v1 <> VNil /\
      (ty = spec_type v1 \/ exists v2, past i v2 /\ v2 <> VNil /\ spec_type v2 <> spec_type v1).

Lemma kinds_step (past past' : nat -> value -> Prop) c c' i v :
  (forall j x, past j x -> past' j x) -> past' i v -> kinds past c -> new_prims c c' i v -> kinds past' c'.
Proof.
  intros Hsub Hnew Hk Hp j ty Ht. destruct (Hp j ty Ht) as [H|(-> & Hv & [->|(-> & t1 & H & N)])].
  - destruct (Hk j ty H) as (v1 & P1 & N1 & [E|(v2 & P2 & N2 & D)]); exists v1; eauto 10.
  - exists v. eauto.
  - destruct (Hk i t1 H) as (v1 & P1 & N1 & [E|(v2 & P2 & N2 & D)]); subst.
    + exists v1. split; [auto|split; [auto|right; exists v; repeat split; auto]].
    + exists v1. split; [auto|split; [auto|right; exists v2; auto]].
Qed.

Lemma spec_type_kind v w : v <> VNil -> w <> VNil -> spec_type v <> spec_type w -> ~ same_kind v w.
Proof. destruct v, w; cbn; intros; try tauto; congruence. Qed.


Lemma w_set_kinds numeric n f w A k i v w' (past past' : nat -> value -> Prop) :
  winv numeric n w A -> (k < length A)%nat -> (i < n)%nat ->
  (forall j x, past j x -> past' j x) -> past' i v -> kinds past (w_cls w) ->
  w_set (S (S f)) w k i v = Ok w' -> kinds past' (w_cls w').
Proof.
  intros Hw Hk Hi Hsub Hnew HK E. destruct (winv_types _ _ _ _ _ _ Hw Hk Hi) as (o & t & u & Ho & Ht & Hu).
  pose proof Hw as (H1 & H2 & H3 & H4). destruct (H4 k o Ho) as (I1 & I2 & I3 & I4).
  unfold w_set, get_obj, get_slot in E. rewrite Ho in E. cbn [bind] in E.
  destruct (clash_dec t u v) as [C|C].
  - rewrite (set_field_clash n (S f) _ o i v t u H1 I1 I2 Ht Hu C) in E. discriminate.
  - destruct (set_field_ok n f _ o i v t u H1 I1 I2 Ht Hu C)
      as (c' & o' & E2 & Hc' & He & Hl' & Ho' & Hp & Hoth & Hthis).
    rewrite E2 in E. injection E as <-. cbn. eapply kinds_step; eauto.
Qed.

Lemma frun_kinds n m f ops : forall past w A w', winv (seq 0 n) n w A -> fvalid_history n (length A) ops ->
  kinds past (w_cls w) -> frun m (S (S f)) w ops = Ok w' ->
  kinds (fun i v => past i v \/ assigned ops i v) (w_cls w').
Proof.
  induction ops as [|op ops IH]; intros past w A w' Hw Hv HK E; cbn [frun fvalid_history] in *.
  - injection E as <-. intros i ty H. destruct (HK i ty H) as (v1 & P1 & N1 & [D|(v2 & P2 & D)]);
      exists v1; eauto 10.
  - destruct Hv as [Hv Ht]. destruct (fexec m (S (S f)) w op) as [w1|] eqn:E1; [|discriminate]. cbn [bind] in E.
    assert (W1 : winv (seq 0 n) n w1 (fspec_step m n A op)).
    { eapply fexec_inv; eauto. intros k i v -> _. apply in_seq. cbn in Hv. lia. }
    assert (K1 : kinds (fun i v => past i v \/ (exists k, op = FSet k i v)) (w_cls w1)).
    { destruct op as [|k i v|k i|k]; cbn [fexec fvalid] in *.
      - injection E1 as <-. cbn. intros i ty H. destruct (HK i ty H) as (v1 & P1 & N1 & [D|(v2 & P2 & D)]); exists v1; eauto 10.
      - eapply (w_set_kinds (seq 0 n) n f w A k i v); eauto; try apply Hv.
      - destruct (w_inc m w k i) as [[r w2]|] eqn:Ei; [|discriminate]. injection E1 as <-.
        assert (w_cls w2 = w_cls w) as Ec.
        { unfold w_inc in Ei. destruct (get_obj w k) as [o|]; [|discriminate]. cbn [bind] in Ei.
          destruct (inc_field m (w_cls w) o i); [|discriminate]. injection Ei as _ <-. reflexivity. }
        cbn [snd]. rewrite Ec. intros j ty H. destruct (HK j ty H) as (v1 & P1 & N1 & [D|(v2 & P2 & D)]); exists v1; eauto 10.
      - destruct (send_sync_ok (seq 0 n) n (S f) w A k Hw Hv) as (w2 & o & E2 & W & Ec & _).
        rewrite E1 in E2. injection E2 as <-. rewrite Ec.
        intros j ty H. destruct (HK j ty H) as (v1 & P1 & N1 & [D|(v2 & P2 & D)]); exists v1; eauto 10. }
    assert (H : kinds (fun i v => (past i v \/ (exists k, op = FSet k i v)) \/ assigned ops i v) (w_cls w')).
    { eapply IH; [exact W1| |exact K1|exact E]. rewrite fspec_length. destruct op; exact Ht. }
    assert (T : forall i v, (past i v \/ (exists k, op = FSet k i v)) \/ assigned ops i v -> past i v \/ assigned (op :: ops) i v).
    { intros i v [[P|[k ->]]|[k P]]; [auto|right; exists k; now left|right; exists k; now right]. }
    intros i ty Hh. destruct (H i ty Hh) as (v1 & P1 & N1 & [D|(v2 & P2 & D)]); exists v1; eauto 10.
Qed.

Lemma kinds_empty n : kinds (fun _ _ => False) (w_cls (new_world n)).
Proof.
  intros i ty (k & Hk & H). cbn in Hk. destruct k; [|lia]. cbn in H.
  apply nth_error_In in H. apply repeat_spec in H. discriminate.
Qed.

Lemma w_set_failure numeric n f w A k i v e (past : nat -> value -> Prop) :
  winv numeric n w A -> (k < length A)%nat -> (i < n)%nat -> kinds past (w_cls w) ->
  w_set (S (S f)) w k i v = Err e ->
  e = AssertionError /\ w_get w k i = Ok VNil /\ v <> VNil
  /\ exists v', past i v' /\ v' <> VNil /\ ~ same_kind v v'.
Proof.
  intros Hw Hk Hi HK E. destruct (winv_types _ _ _ _ _ _ Hw Hk Hi) as (o & t & u & Ho & Ht & Hu).
  pose proof Hw as (H1 & H2 & H3 & H4). destruct (H4 k o Ho) as (I1 & I2 & I3 & I4).
  assert (G : w_get w k i = rd (layout_of (w_cls w) (o_layout o)) o i).
  { unfold w_get, get_obj, get_slot. rewrite Ho. reflexivity. }
  unfold w_set, get_obj, get_slot in E. rewrite Ho in E. cbn [bind] in E.
  destruct (clash_dec t u v) as [C|C].
  - rewrite (set_field_clash n (S f) _ o i v t u H1 I1 I2 Ht Hu C) in E. injection E as <-.
    destruct C as (-> & Hv & t' & -> & N). split; [reflexivity|].
    split; [rewrite G, (rd_eq _ _ _ _ Ht); reflexivity|]. split; [exact Hv|].
    destruct (HK i t') as (v1 & P1 & N1 & D).
    { exists (cur_idx (w_cls w)). split; [eapply cur_lt; eauto|exact Hu]. }
    destruct D as [->|(v2 & P2 & N2 & D)].
    + exists v1. split; [auto|split; [auto|]]. apply spec_type_kind; auto.
    + destruct (ftype_eqb_spec (spec_type v) (spec_type v1)) as [Q|Q].
      * exists v2. split; [auto|split; [auto|]]. apply spec_type_kind; auto. congruence.
      * exists v1. split; [auto|split; [auto|]]. apply spec_type_kind; auto.
  - destruct (set_field_ok n f _ o i v t u H1 I1 I2 Ht Hu C) as (c' & o' & E2 & _).
    rewrite E2 in E. discriminate.
Qed.

Lemma w_set_after_send numeric n f g w A k i v : winv numeric n w A -> (k < length A)%nat -> (i < n)%nat ->
  exists w1 w2, w_send (S g) w k = Ok w1 /\ w_set (S (S f)) w1 k i v = Ok w2.
Proof.
  intros Hw Hk Hi. destruct (send_sync_ok numeric n g w A k Hw Hk) as (w1 & o & E & W & Ec & Ho & Hl).
  destruct (winv_types _ _ _ _ _ _ W Hk Hi) as (o2 & t & u & Ho2 & Ht & Hu).
  rewrite Ho in Ho2. injection Ho2 as <-.
  assert (t = u) as <-. { unfold cur_layout in Hu. rewrite Ec in Hu, Ht. rewrite Hl in Ht. congruence. }
  assert (C : ~ clash t t v) by (intros (-> & _ & x & ? & _); discriminate).
  pose proof W as (H1 & H2 & H3 & H4). destruct (H4 k o Ho) as (I1 & I2 & I3 & I4).
  destruct (set_field_ok n f _ o i v t t H1 I1 I2 Ht Hu C) as (c' & o' & E2 & _).
  exists w1. unfold w_set, get_obj, get_slot. rewrite Ho. cbn [bind]. rewrite E2. eexists. split; [exact E|reflexivity].
Qed.

Lemma valid_fields n ops : forall c, fvalid_history n c ops ->
  forall a b v, In (FSet a b v) ops -> word_sized v -> In b (seq 0 n).
Proof.
  induction ops as [|op ops IH]; intros c Hv a b v H Hs; [contradiction|].
  cbn in Hv. destruct Hv as [Ho Hv]. destruct H as [->|H]; [apply in_seq; cbn in Ho; lia|].
  eapply IH; eauto.
Qed.
