(** Reading and writing variables, as compiled. *)
From Coq Require Import ZArith Bool String Ascii List Lia.
From Verif Require Import Base LexModel ParseModel BcModel BcInterp BcSpec BcTab BcCode BcSim BcEval BcMono BcAdapt BcScope BcEmit.
Import ListNotations.
Open Scope nat_scope.
Open Scope list_scope.

Lemma resolve_some n rho k v : resolve n rho = Some (k, v) <-> innermost n rho k v.
Proof.
  revert k v. unfold innermost. induction rho as [|l rho IH]; intros k v; cbn [resolve].
  - split; [discriminate|]. intros [(l & E & _) _]. destruct k; discriminate.
  - destruct (in_level n l) as [w|] eqn:El.
    + split.
      * intros E. injection E as <- <-. split; [exists l; auto|]. intros; lia.
      * intros [(l' & E & E') H]. destruct k as [|k].
        -- cbn in E. injection E as <-. congruence.
        -- specialize (H 0 l ltac:(lia) eq_refl). congruence.
    + destruct (resolve n rho) as [[j w]|] eqn:Er; cbn [option_map fst snd].
      * split.
        -- intros E. injection E as <- <-. destruct (proj1 (IH j w) eq_refl) as [(l' & E1 & E2) H]. split; [exists l'; auto|].
           intros [|i] l0 Hi E; cbn in E; [congruence|]. apply (H i); auto. lia.
        -- intros [(l' & E & E') H]. destruct k as [|k]; cbn in E; [congruence|].
           assert (Some (j, w) = Some (k, v)).
           { apply IH. split; [eauto|]. intros i l0 Hi E0. apply (H (S i)); auto. lia. }
           congruence.
      * split; [discriminate|]. intros [(l' & E & E') H]. destruct k as [|k]; cbn in E; [congruence|].
        assert (None = Some (k, v)); [|discriminate].
        apply IH. split; [eauto|]. intros i l0 Hi E0. apply (H (S i)); auto. lia.
Qed.
Lemma resolve_none n rho : resolve n rho = None <-> undeclared n rho.
Proof.
  unfold undeclared. induction rho as [|l rho IH]; cbn [resolve]; [split; auto|].
  destruct (in_level n l) eqn:El.
  - split; [discriminate|]. intros H. inversion H. congruence.
  - destruct (resolve n rho); cbn [option_map].
    + split; [discriminate|]. intros H. inversion H; subst. apply IH in H3. discriminate.
    + split; [|auto]. constructor; auto. apply IH. auto.
Qed.

Definition any : allow := fun _ _ => True.
Lemma tables_cx scs : tables_of scs = map fst (cx_of scs).
Proof. unfold tables_of, cx_of. rewrite map_map. reflexivity. Qed.
Section Vars.
Variable ce : cenv.
Notation fields := (ce_fields ce).
Context {S X : Type}.
Variable μ : machine S X.

Lemma emitted_step C F g g' o b bo cap post st s h' : emits fields C F any g g' o b bo ->
  op_ht o (length st) = Some h' -> h' <= cap -> length st <= cap ->
  step μ cap (map fst C) F (g_bytes g' ++ post) (length (g_bytes g)) st s =
  bind (exec_op μ o st s) (fun st s => Done (length (g_bytes g'), st) s).
Proof.
  intros [E1 E2 _ _ _ _ _ _] Hh Hc Hl. rewrite E2, app_length.
  eapply step_op; eauto. rewrite <- app_assoc. reflexivity.
Qed.
Lemma cx_mark_self scs : cx_of (mark_self scs) = cx_of scs.
Proof. unfold cx_of, mark_self. rewrite map_map. reflexivity. Qed.
Lemma read_step n rho scs g g' scs' cap more post st s :
  env_ok scs rho -> gen_push_variable ce n (g, scs) = Ok (g', scs') -> length st < cap ->
  step μ cap (tables_of scs') (g_lits g' ++ more) (g_bytes g' ++ post) (length (g_bytes g)) st s =
  bind (read_var fields μ rho n s) (fun v s => Done (length (g_bytes g'), v :: st) s).
Proof.
  intros He H Hl. rewrite tables_cx. unfold gen_push_variable in H.
  destruct (find_var n scs) as [[[k f]|] scs1] eqn:Ef;
    destruct (find_var_spec _ _ _ He _ _ Ef) as (F1 & F2 & F3 & F4).
  - cbn [option_map fst snd] in F1. injection H as <- <-. destruct F4 as (F4 & sc & F5 & F6). unfold read_var. rewrite F1.
    pose proof (cx_of_le _ _ (mark_accessed_le k (ref_of f) scs1)) as [L1 L2].
    destruct f as [i d|i]; cbn [ref_of] in *.
    + rewrite (emitted_step (cx_of (mark_accessed k (VLoc d) scs1)) _ g (emit3 B_push_local i k 1 g) (OLoc k d) B_push_local [num B_push_local; i; k] cap post st s (Datatypes.S (length st))); cbn [op_ht]; auto; try lia.
      * cbn [exec_op]. rewrite bind_assoc. reflexivity.
      * apply emits_loc; [apply L2; auto|exact (fun _ => Logic.I)].
    + rewrite (emitted_step (cx_of (mark_accessed k (VArg i) scs1)) _ g (emit3 B_push_argument i k 1 g) (OArg k i) B_push_argument [num B_push_argument; i; k] cap post st s (Datatypes.S (length st))); cbn [op_ht]; auto; try lia.
      * cbn [exec_op]. rewrite bind_assoc. reflexivity.
      * apply emits_arg. exact (fun _ => Logic.I).
  - cbn [option_map] in F1. unfold read_var. rewrite F1. rewrite find_text_position in H.
    assert (Em : max_ctx scs1 = depth rho).
    { unfold max_ctx, depth. rewrite (env_ok_length _ _ He), (scs_le_length _ _ F2). auto. }
    destruct (position n fields) as [i|] eqn:Ep.
    + destruct (add_literal_if_absent (LS n) g) as [j g1] eqn:Ea.
      destruct (absent_spec _ _ _ _ Ea) as (x & -> & _).
      apply (f_equal (fun r => match r with Ok a => a | Err _ => (g, scs) end)) in H. cbv beta iota in H.
      injection H as <- <-. rewrite Em.
      set (g1 := with_lits (g_lits g ++ x) g).
      set (g2 := emit_push_field_with_index i (depth rho) (depth rho) g1).
      destruct (emits_fld fields (cx_of (mark_self scs1)) (g_lits g2 ++ more) any g1 i (depth rho)) as (b & bo & Hem & _).
      { intros _. exact Logic.I. }
      fold g2 in Hem. change (length (g_bytes g)) with (length (g_bytes g1)).
      rewrite (emitted_step _ _ _ _ _ _ _ cap post st s (Datatypes.S (length st)) Hem); cbn [op_ht]; auto; try lia.
      cbn [exec_op]. rewrite bind_assoc. reflexivity.
    + apply (f_equal (fun r => match r with Ok a => a | Err _ => (g, scs) end)) in H. cbv beta iota in H.
      destruct (emits_global fields ce (cx_of scs') (g_lits g' ++ more) any g scs1 n g' scs' H) as [(b & bo & Hem & _) _].
      { intros l _ i Hi. apply nth_app_some. exact Hi. }
      rewrite (emitted_step _ _ _ _ _ _ _ cap post st s (Datatypes.S (length st)) Hem); try lia.
      * unfold glob_op. destruct (text_eqb n t_nil); [reflexivity|]. destruct (text_eqb n t_true); [reflexivity|].
        destruct (text_eqb n t_false); [reflexivity|]. cbn [exec_op]. rewrite bind_assoc. reflexivity.
      * unfold glob_op. destruct (text_eqb n t_nil); [reflexivity|]. destruct (text_eqb n t_true); [reflexivity|].
        destruct (text_eqb n t_false); reflexivity.
Qed.
Lemma inc_off f k g : lastb 0 g <> B_dup -> optimize_inc_field f k g = Ok (false, g).
Proof.
  intros Hd. unfold optimize_inc_field. destruct (peep_off g); auto. unfold last_is.
  destruct (is (lastb 0 g) B_dup) eqn:E; auto. exfalso. apply Hd. destruct (lastb 0 g); try discriminate E; reflexivity.
Qed.
Lemma inc_peep f k g : peep_off g = true -> optimize_inc_field f k g = Ok (false, g).
Proof. intros H. unfold optimize_inc_field. rewrite H. auto. Qed.
Lemma write_step n rho scs g g' scs' cap more post v st s :
  env_ok scs rho -> (peep_off g = true \/ lastb 0 g <> B_dup) -> gen_pop_variable ce n (g, scs) = Ok (g', scs') -> length st < cap ->
  step μ cap (tables_of scs') (g_lits g' ++ more) (g_bytes g' ++ post) (length (g_bytes g)) (v :: st) s =
  bind (write_var fields μ rho n v s) (fun _ s => Done (length (g_bytes g'), st) s).
Proof.
  intros He Hp H Hl. rewrite tables_cx. unfold gen_pop_variable in H.
  destruct (find_var n scs) as [[[k f]|] scs1] eqn:Ef;
    destruct (find_var_spec _ _ _ He _ _ Ef) as (F1 & F2 & F3 & F4).
  - cbn [option_map fst snd] in F1. injection H as <- <-. destruct F4 as (F4 & sc & F5 & F6). unfold write_var. rewrite F1.
    pose proof (cx_of_le _ _ (mark_accessed_le k (ref_of f) scs1)) as [L1 L2].
    destruct f as [i d|i]; cbn [ref_of] in *.
    + rewrite (emitted_step (cx_of (mark_accessed k (VLoc d) scs1)) _ g (emit3 B_pop_local i k (-1) g) (OSetLoc k d) B_pop_local [num B_pop_local; i; k] cap post (v :: st) s (length st)); cbn [length]; auto; try lia.
      * cbn [exec_op pop]. rewrite bind_assoc. reflexivity.
      * apply emits_setloc; [apply L2; auto|exact (fun _ => Logic.I)].
      * unfold op_ht. change (1 <=? Datatypes.S (length st)) with true. cbv iota. f_equal. lia.
    + rewrite (emitted_step (cx_of (mark_accessed k (VArg i) scs1)) _ g (emit3 B_pop_argument i k (-1) g) (OSetArg k i) B_pop_argument [num B_pop_argument; i; k] cap post (v :: st) s (length st)); cbn [length]; auto; try lia.
      * cbn [exec_op pop]. rewrite bind_assoc. reflexivity.
      * apply emits_setarg; [exact (fun _ => Logic.I)|lia].
      * unfold op_ht. change (1 <=? Datatypes.S (length st)) with true. cbv iota. f_equal. lia.
  - cbn [option_map] in F1. unfold write_var. rewrite F1. rewrite find_text_position in H.
    assert (Em : max_ctx scs1 = depth rho).
    { unfold max_ctx, depth. rewrite (env_ok_length _ _ He), (scs_le_length _ _ F2). auto. }
    destruct (position n fields) as [i|] eqn:Ep; [|discriminate].
    assert (Eo : optimize_inc_field i (max_ctx scs1) g = Ok (false, g)) by (destruct Hp; [apply inc_peep|apply inc_off]; auto).
    rewrite Eo in H. cbn [Base.bind fst snd] in H. injection H as <- <-. rewrite Em.
    destruct (emits_setfld fields (cx_of (mark_self scs1)) (g_lits (emit_pop_field_with_index i (depth rho) g) ++ more) any g i (depth rho)) as (b & bo & Hem & _).
    { intros _. exact Logic.I. }
    rewrite (emitted_step _ _ _ _ _ _ _ cap post (v :: st) s (length st) Hem); cbn [length]; auto; try lia.
    + cbn [exec_op pop]. rewrite bind_assoc. reflexivity.
    + unfold op_ht. change (1 <=? Datatypes.S (length st)) with true. cbv iota. f_equal. lia.
Qed.
End Vars.
