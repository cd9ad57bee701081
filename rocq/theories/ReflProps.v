(** C61, C62: reflective access to fields. *)
From Coq Require Import ZArith Bool String List Lia.
From Verif Require Import Base NumModel ArrModel ArrSpec ArrProofs FldModel FldSpec FldProofs ReflModel ReflSpec ReflProofs.
Import ListNotations.
Open Scope Z_scope.
Open Scope list_scope.

(** * C61 *)
(** [instVarAt: i] with 1 <= i <= n answers what field number i holds, after any history of
    assignments by methods and by [instVarAt:put:]; it changes nothing. *)
Theorem C61_inst_var_at_partial : forall m fuel names ops w k i,
  (2 <= fuel)%nat -> rvalid_history names 0 ops -> at_most_32_numeric ops ->
  rrun m fuel names (new_world (length names)) ops = Ok w ->
  (k < created ops)%nat -> 1 <= i <= Z.of_nat (length names) ->
  exists w', w_at fuel w k (VInt i) = Ok (field (rspec_run m (length names) [] ops) k (Z.to_nat (i - 1)), w') /\
    shows (length names) w' (rspec_run m (length names) [] ops).
Proof.
  intros m fuel names ops w k i Hf Hv (numeric & Hl & H1 & H2) E Hk Hi. destruct fuel as [|[|f]]; try lia.
  pose proof (rrun_inv numeric m f names ops _ [] w (winv_empty _ _) Hv H1 H2 E) as W.
  assert (Hk' : (k < length (rspec_run m (length names) [] ops))%nat) by (rewrite rcreated; exact Hk).
  destruct (at_any _ _ (S f) _ _ _ (VInt i) W Hk') as (w' & _ & W' & Ea).
  exists w'. pose proof (shows_inv _ _ _ _ W' Hl) as Hs. split; [|exact Hs]. rewrite Ea.
  destruct (length names) as [|n] eqn:En; [lia|]. cbn [embedded_integer bind]. rewrite py_index_in by lia. cbn [bind].
  rewrite Hs by (auto; lia). reflexivity.
Qed.
Print Assumptions C61_inst_var_at_partial.

(** [instVarAt: i put: v] with 1 <= i <= n always succeeds, whatever has been assigned to the
    field before in whatever object, and answers v. *)
Theorem C61_inst_var_at_put_succeeds : forall m fuel names ops w k i v,
  (2 <= fuel)%nat -> rvalid_history names 0 ops ->
  rrun m fuel names (new_world (length names)) ops = Ok w ->
  (k < created ops)%nat -> 1 <= i <= Z.of_nat (length names) ->
  exists w', w_at_put fuel w k (VInt i) v = Ok (v, w').
Proof.
  intros m fuel names ops w k i v Hf Hv E Hk Hi. destruct fuel as [|[|f]]; try lia.
  pose proof (reached_all _ _ _ _ _ Hv E) as W.
  destruct (at_put_ok _ _ f _ _ k i (Z.to_nat (i - 1)) v W) as (w' & E' & _); [rewrite rcreated; exact Hk|apply py_index_in; lia|lia| |eauto].
  intros _. apply in_seq. lia.
Qed.
Print Assumptions C61_inst_var_at_put_succeeds.

(** After it field number i of the object holds v; all other fields of it and of all other
    objects hold what they held. *)
Theorem C61_inst_var_at_put_partial : forall m fuel names ops w k i v w',
  (2 <= fuel)%nat -> rvalid_history names 0 ops -> at_most_32_numeric (ops ++ [RAtPut k i v]) ->
  rrun m fuel names (new_world (length names)) ops = Ok w ->
  (k < created ops)%nat -> 1 <= i <= Z.of_nat (length names) ->
  w_at_put fuel w k (VInt i) v = Ok (v, w') ->
  let before := rspec_run m (length names) [] ops in
  w_get w' k (Z.to_nat (i - 1)) = Ok v /\
  forall k' i', (k' < created ops)%nat -> (i' < length names)%nat -> (k', i') <> (k, Z.to_nat (i - 1)) ->
    w_get w' k' i' = Ok (field before k' i').
Proof.
  intros m fuel names ops w k i v w' Hf Hv (numeric & Hl & H1 & H2) E Hk Hi Ea before. destruct fuel as [|[|f]]; try lia.
  assert (W : winv numeric (length names) w before).
  { eapply rrun_inv; [apply winv_empty|exact Hv| | |exact E]; intros a b c Hin; [eapply H1|eapply H2]; apply in_or_app; left; exact Hin. }
  assert (Hk' : (k < length before)%nat) by (unfold before; rewrite rcreated; exact Hk).
  destruct (at_put_ok _ _ f _ _ k i (Z.to_nat (i - 1)) v W Hk') as (w2 & E' & W2); [apply py_index_in; lia|lia| |].
  { intros Ws. apply (H2 k i v); [apply in_or_app; right; left; reflexivity|exact Ws]. }
  rewrite Ea in E'. injection E' as <-. pose proof (shows_inv _ _ _ _ W2 Hl) as Hs.
  assert (Hr : length (nth k before []) = length names).
  { destruct (winv_obj _ _ _ _ _ W Hk') as (o & _ & (_ & _ & Hr & _)). exact Hr. }
  split.
  - rewrite Hs by (rewrite ?put_at_length; lia). f_equal. unfold field. rewrite nth_put_same by exact Hk'.
    apply nth_put_same. lia.
  - intros k' i' Hk2 Hi2 Hne. rewrite Hs by (rewrite ?put_at_length; auto; unfold before; rewrite rcreated; exact Hk2).
    f_equal. unfold field. destruct (Nat.eq_dec k k') as [<-|N].
    + rewrite nth_put_same by exact Hk'. apply nth_put_other. congruence.
    + rewrite nth_put_other by exact N. reflexivity.
Qed.
Print Assumptions C61_inst_var_at_put_partial.

(** [instVarNamed: #x] answers the last field of that name. *)
Theorem C61_inst_var_named_partial : forall m fuel names ops w k name,
  (2 <= fuel)%nat -> rvalid_history names 0 ops -> at_most_32_numeric ops ->
  rrun m fuel names (new_world (length names)) ops = Ok w ->
  (k < created ops)%nat -> In name names ->
  exists i w', nth_error names i = Some name /\ (forall j, (i < j)%nat -> nth_error names j <> Some name) /\
    w_named fuel names w k (VSym name) = Ok (field (rspec_run m (length names) [] ops) k i, w') /\
    shows (length names) w' (rspec_run m (length names) [] ops).
Proof.
  intros m fuel names ops w k name Hf Hv (numeric & Hl & H1 & H2) E Hk Hin. destruct fuel as [|[|f]]; try lia.
  pose proof (rrun_inv numeric m f names ops _ [] w (winv_empty _ _) Hv H1 H2 E) as W.
  assert (Hk' : (k < length (rspec_run m (length names) [] ops))%nat) by (rewrite rcreated; exact Hk).
  destruct (named_any _ names (S f) _ _ _ (VSym name) W Hk') as (w' & _ & W' & Ea).
  destruct (lookup_found names name Hin) as (i & L1 & L2 & L3 & L4).
  exists i, w'. pose proof (shows_inv _ _ _ _ W' Hl) as Hs. split; [exact L3|]. split; [exact L4|]. split; [|exact Hs]. rewrite Ea, L2.
  destruct (length names) as [|n] eqn:En; [lia|]. rewrite py_index_in by lia. cbn [bind]. rewrite Nat2Z.id.
  rewrite Hs by auto. reflexivity.
Qed.
Print Assumptions C61_inst_var_named_partial.

(** If the names of the fields are distinct, that is the field the methods of the class read
    and assign under this name. *)
Theorem C61_named_as_in_methods_partial : forall m fuel names ops w k name,
  (2 <= fuel)%nat -> rvalid_history names 0 ops -> at_most_32_numeric ops -> NoDup names ->
  rrun m fuel names (new_world (length names)) ops = Ok w ->
  (k < created ops)%nat -> In name names ->
  exists i w', get_field_index names name = Some i /\
    w_named fuel names w k (VSym name) = Ok (field (rspec_run m (length names) [] ops) k i, w').
Proof.
  intros m fuel names ops w k name Hf Hv Hn Hd E Hk Hin.
  destruct (C61_inst_var_named_partial m fuel names ops w k name Hf Hv Hn E Hk Hin) as (i & w' & A & B & C & _).
  destruct (index_some names name Hin) as [j Ej]. destruct (first_index _ _ _ Ej) as [F _].
  assert (i = j).
  { apply (NoDup_nth_error names); [exact Hd|apply nth_error_Some; congruence|congruence]. }
  subst j. eauto.
Qed.
Print Assumptions C61_named_as_in_methods_partial.

(** A class that declares a field of the name of an inherited one: methods see the inherited
    one, [instVarNamed:] the other. *)
Theorem C61_named_as_in_methods_refuted :
  let names := ["x"; "x"]%string in
  let ops := [RField FNew; RField (FSet 0 0 (VInt 1)); RField (FSet 0 1 (VInt 2))] in
  rvalid_history names 0 ops /\ at_most_32_numeric ops /\ get_field_index names "x" = Some 0%nat /\
  (w <- rrun Translated 2 names (new_world 2) ops ;; r <- w_named 2 names w 0 (VSym "x") ;; v <- w_get w 0 0 ;; Ok (fst r, v))
  = Ok (VInt 2, VInt 1).
Proof.
  intros names ops. split; [cbn; repeat split; lia|]. split; [|split; vm_compute; reflexivity].
  exists [0; 1]%nat. split; [cbn; lia|]. split; intros k i v H _; cbn in H.
  - destruct H as [H|[H|[H|[]]]]; try discriminate; injection H as <- <- <-; cbn; auto.
  - destruct H as [H|[H|[H|[]]]]; discriminate.
Qed.
Print Assumptions C61_named_as_in_methods_refuted.

(** Asked for anything that is not the name of a field, [instVarNamed:] answers the last
    field, in every object that has fields: nothing is reported. *)
Theorem C61_unknown_name_refuted : forall m fuel names ops w k v,
  (2 <= fuel)%nat -> rvalid_history names 0 ops -> at_most_32_numeric ops ->
  rrun m fuel names (new_world (length names)) ops = Ok w ->
  (k < created ops)%nat -> (0 < length names)%nat -> (forall name, v = VSym name -> ~ In name names) ->
  exists w', w_named fuel names w k v = Ok (field (rspec_run m (length names) [] ops) k (length names - 1), w').
Proof.
  intros m fuel names ops w k v Hf Hv (numeric & Hl & H1 & H2) E Hk Hn Hu. destruct fuel as [|[|f]]; try lia.
  pose proof (rrun_inv numeric m f names ops _ [] w (winv_empty _ _) Hv H1 H2 E) as W.
  assert (Hk' : (k < length (rspec_run m (length names) [] ops))%nat) by (rewrite rcreated; exact Hk).
  destruct (named_any _ names (S f) _ _ _ v W Hk') as (w' & _ & W' & Ea).
  exists w'. pose proof (shows_inv _ _ _ _ W' Hl) as Hs. rewrite Ea, (lookup_unknown names v Hu).
  destruct (length names) as [|n] eqn:En; [lia|]. rewrite py_index_wraps by lia. cbn [bind].
  replace (Z.to_nat (-1 + Z.of_nat (S n))) with (S n - 1)%nat by lia. rewrite Hs by (auto; lia). reflexivity.
Qed.
Print Assumptions C61_unknown_name_refuted.

(** Numbers outside 1 to n: those from 1 - n to 0 count from the end (they should be
    rejected), all others are rejected; so is anything that is not an Integer. *)
Theorem C61_out_of_range_partial : forall m fuel names ops w k idx v,
  (2 <= fuel)%nat -> rvalid_history names 0 ops ->
  rrun m fuel names (new_world (length names)) ops = Ok w -> (k < created ops)%nat ->
  (forall z, idx = VInt z -> z <= - Z.of_nat (length names) \/ Z.of_nat (length names) < z) ->
  (exists e, w_at fuel w k idx = Err e) /\ (exists e, w_at_put fuel w k idx v = Err e).
Proof.
  intros m fuel names ops w k idx v Hf Hv E Hk Hi. destruct fuel as [|[|f]]; try lia.
  pose proof (reached_all _ _ _ _ _ Hv E) as W.
  assert (Hk' : (k < length (rspec_run m (length names) [] ops))%nat) by (rewrite rcreated; exact Hk).
  assert (Hx : forall n z, idx = VInt z -> length names = n -> py_index n (z - 1) = Err IndexError).
  { intros n z -> <-. specialize (Hi z eq_refl). apply py_index_out. lia. }
  split.
  - destruct (at_any _ _ (S f) _ _ _ idx W Hk') as (w' & _ & _ & Ea). rewrite Ea.
    destruct (length names) as [|n] eqn:En; [eauto|]. destruct idx; cbn [embedded_integer bind]; eauto.
    rewrite (Hx (S n) z) by auto. cbn [bind]. eauto.
  - destruct (sent _ _ (S f) _ _ _ W Hk') as (w' & o & Es & _ & G & L & _).
    unfold w_at_put. rewrite Es. cbn [bind]. rewrite G. cbn [bind]. unfold inst_var_at_put, with_fields. rewrite L.
    destruct (length names) as [|n] eqn:En; [cbn [bind]; eauto|]. cbn [bind]. destruct idx; cbn [embedded_integer bind]; eauto.
    rewrite (Hx (S n) z) by auto. cbn [bind]. eauto.
Qed.
Print Assumptions C61_out_of_range_partial.
Theorem C61_out_of_range_refuted : forall m fuel names ops w k i,
  (2 <= fuel)%nat -> rvalid_history names 0 ops -> at_most_32_numeric ops ->
  rrun m fuel names (new_world (length names)) ops = Ok w ->
  (k < created ops)%nat -> - Z.of_nat (length names) < i <= 0 ->
  exists w', w_at fuel w k (VInt i)
    = Ok (field (rspec_run m (length names) [] ops) k (Z.to_nat (Z.of_nat (length names) + i - 1)), w').
Proof.
  intros m fuel names ops w k i Hf Hv (numeric & Hl & H1 & H2) E Hk Hi. destruct fuel as [|[|f]]; try lia.
  pose proof (rrun_inv numeric m f names ops _ [] w (winv_empty _ _) Hv H1 H2 E) as W.
  assert (Hk' : (k < length (rspec_run m (length names) [] ops))%nat) by (rewrite rcreated; exact Hk).
  destruct (at_any _ _ (S f) _ _ _ (VInt i) W Hk') as (w' & _ & W' & Ea).
  exists w'. pose proof (shows_inv _ _ _ _ W' Hl) as Hs. rewrite Ea.
  destruct (length names) as [|n] eqn:En; [lia|]. cbn [embedded_integer bind]. rewrite py_index_wraps by lia. cbn [bind].
  replace (i - 1 + Z.of_nat (S n)) with (Z.of_nat (S n) + i - 1) by lia. rewrite Hs by (auto; lia). reflexivity.
Qed.
Print Assumptions C61_out_of_range_refuted.

(** Two objects, two fields; the second object gets a String where the first has an Integer,
    which fails when a method assigns it without a message in between (C20). *)
Definition refl_names : list string := ["x"; "y"]%string.
Definition refl_demo : list rop :=
  [RField FNew; RField FNew; RField (FSet 0 0 (VInt 1)); RAtPut 1 1 (VStr "a"); RAt 0 2; RNamed 1 "x"; RAtPut 0 2 VTrue].
Example C61_nonvacuous : exists w,
  rvalid_history refl_names 0 refl_demo /\ at_most_32_numeric refl_demo /\
  rrun Translated 2 refl_names (new_world 2) refl_demo = Ok w /\
  (r <- w_at 2 w 0 (VInt 2) ;; Ok (fst r)) = Ok VTrue /\ (r <- w_named 2 refl_names w 1 (VSym "x") ;; Ok (fst r)) = Ok (VStr "a") /\
  (r <- w_named 2 refl_names w 0 (VSym "z") ;; Ok (fst r)) = Ok VTrue /\ (r <- w_at 2 w 0 (VInt 0) ;; Ok (fst r)) = Ok VTrue /\
  (r <- w_at 2 w 0 (VInt 3) ;; Ok (fst r)) = Err IndexError.
Proof.
  eexists. split; [cbn; repeat split; auto; lia|]. split.
  - exists [0]%nat. split; [cbn; lia|]. split; intros k i v H Hs; cbn in H;
      repeat (destruct H as [H|H]; [try discriminate; injection H as <- <- <-; cbn in *; auto; contradiction|]); contradiction.
  - split; [vm_compute; reflexivity|]. repeat split; vm_compute; reflexivity.
Qed.

(** * C62 *)
(** An object without fields answers 0. *)
Theorem C62_no_fields_partial : forall m fuel ops w k,
  (2 <= fuel)%nat -> rvalid_history [] 0 ops ->
  rrun m fuel [] (new_world 0) ops = Ok w -> (k < created ops)%nat ->
  exists w', w_size fuel w k = Ok (VInt 0, w').
Proof.
  intros m fuel ops w k Hf Hv E Hk. destruct fuel as [|[|f]]; try lia.
  pose proof (reached_all m f [] ops w Hv E) as W.
  assert (Hk' : (k < length (rspec_run m 0 [] ops))%nat) by (rewrite rcreated; exact Hk).
  destruct (sent _ _ (S f) _ _ _ W Hk') as (w' & o & Es & _ & G & L & _).
  exists w'. unfold w_size. rewrite Es. cbn [bind]. rewrite G. cbn [bind]. unfold object_size. rewrite L. reflexivity.
Qed.
Print Assumptions C62_no_fields_partial.

(** An object with fields never answers their number: [objectSize] fails or answers five less
    than the number of fields kept as references. *)
Theorem C62_object_size_refuted : forall m fuel names ops w k,
  (2 <= fuel)%nat -> rvalid_history names 0 ops ->
  rrun m fuel names (new_world (length names)) ops = Ok w ->
  (k < created ops)%nat -> (0 < length names)%nat ->
  (forall w', w_size fuel w k <> Ok (VInt (Z.of_nat (length names)), w')) /\
  exists w', w_send fuel w k = Ok w' /\
    (w_size fuel w k = Ok (VInt (Z.of_nat (reference_fields w' - 5)), w') \/
     (w_size fuel w k = Err TypeError /\ (reference_fields w' <= 5)%nat)).
Proof.
  intros m fuel names ops w k Hf Hv E Hk Hn. destruct fuel as [|[|f]]; try lia.
  pose proof (reached_all m f names ops w Hv E) as W.
  assert (Hk' : (k < length (rspec_run m (length names) [] ops))%nat) by (rewrite rcreated; exact Hk).
  destruct (size_any _ _ (S f) _ _ _ W Hk' Hn) as (w' & Es & _ & Hs & Hle).
  split; [|exists w'; auto]. intros w2 E2. destruct Hs as [Hs|[Hs _]]; rewrite Hs in E2; [|discriminate].
  injection E2 as E2 _. lia.
Qed.
Print Assumptions C62_object_size_refuted.

Example C62_nonvacuous :
  (w <- rrun Translated 2 refl_names (new_world 2) refl_demo ;; w_size 2 w 0) = Err TypeError /\
  (w <- rrun Translated 2 ["a"; "b"; "c"; "d"; "e"; "f"; "g"]%string (new_world 7)
          (RField FNew :: map (fun i => RAtPut 0 (Z.of_nat i) VTrue) (seq 1 7)) ;;
   r <- w_size 2 w 0 ;; Ok (fst r)) = Ok (VInt 2).
Proof. split; vm_compute; reflexivity. Qed.
