(** Jumps as they are emitted and patched. *)
From Coq Require Import ZArith Bool String Ascii List Lia.
From Verif Require Import Base LexModel ParseModel BcModel BcInterp BcSpec BcTab BcCode BcSim BcEval BcMono BcAdapt BcScope BcEmit BcInl.
Import ListNotations.
Open Scope nat_scope.
Open Scope list_scope.

Lemma fwd_base b k w : jump_form b = Some (k, w) -> k <> JBack ->
  is_jump (num b) = true /\
  (exists b', jump_form b' = Some (k, true) /\ (if num b <? num B_jump2 then num b + NUM_SINGLE else num b) = num b').
Proof.
  intros H Hk. split; [destruct b; try discriminate; reflexivity|].
  destruct b; try discriminate; inversion H; subst; try congruence;
    first [exists B_jump2; split; reflexivity | exists B_jump2_on_true_top_nil; split; reflexivity
      | exists B_jump2_on_false_top_nil; split; reflexivity | exists B_jump2_on_true_pop; split; reflexivity
      | exists B_jump2_on_false_pop; split; reflexivity | exists B_jump2_on_not_nil_top_top; split; reflexivity
      | exists B_jump2_on_nil_top_top; split; reflexivity | exists B_jump2_on_not_nil_pop; split; reflexivity
      | exists B_jump2_on_nil_pop; split; reflexivity].
Qed.
Lemma set_three (bs0 bb : list nat) n x y n' x' y' :
  set_byte (set_byte (set_byte (bs0 ++ n :: x :: y :: bb) (length bs0) n') (length bs0 + 1) x') (length bs0 + 1 + 1) y' =
  bs0 ++ n' :: x' :: y' :: bb.
Proof.
  rewrite set_pre, set_pre1. replace (length bs0 + 1 + 1) with (length bs0 + 2) by lia. apply set_pre2.
Qed.
Lemma set_two (bs0 bb : list nat) n x y x' y' :
  set_byte (set_byte (bs0 ++ n :: x :: y :: bb) (length bs0 + 1) x') (length bs0 + 1 + 1) y' = bs0 ++ n :: x' :: y' :: bb.
Proof. rewrite set_pre1. replace (length bs0 + 1 + 1) with (length bs0 + 2) by lia. apply set_pre2. Qed.

(** What patching does to the three bytes. *)
Lemma patch_result b k w bs0 bb g : jump_form b = Some (k, w) -> k <> JBack ->
  g_bytes g = bs0 ++ [num b; 0; 0] ++ bb ->
  if 3 + length bb <=? 65535
  then exists b' w' x y, patch_jump (S (length bs0)) g = Ok (with_bytes (bs0 ++ [num b'; x; y] ++ bb) g) /\
         jump_form b' = Some (k, w') /\ x <= 255 /\ y <= 255 /\ 3 + length bb = (if w' then x + y * 256 else x)
  else patch_jump (S (length bs0)) g = Err PyException.
Proof.
  intros Hb Hk Hg. destruct (fwd_base _ _ _ Hb Hk) as (J & b' & Hb' & En).
  unfold patch_jump. rewrite Hg. cbn [Nat.sub app]. rewrite Nat.sub_0_r, byte_pre. cbn [Base.bind]. rewrite J. cbn [negb].
  replace (length (bs0 ++ num b :: 0 :: 0 :: bb) - length bs0) with (3 + length bb) by (rewrite app_length; simpl; lia).
  remember (3 + length bb) as n eqn:E. unfold check_jump_offset. destruct (n <=? 65535) eqn:El; [|reflexivity].
  apply Nat.leb_le in El. cbn [Base.bind].
  replace (S (length bs0)) with (length bs0 + 1) by lia. destruct (n <=? 255) eqn:E2.
  - apply Nat.leb_le in E2. rewrite set_two. exists b, w, n, 0. repeat split; auto; try lia.
    destruct w; lia.
  - apply Nat.leb_gt in E2. rewrite En.
    replace (is_jump (num b')) with true by (destruct b'; try discriminate; reflexivity). cbn [negb].
    rewrite set_three. exists b', true, (n mod 256), (n / 256). repeat split; auto.
    + pose proof (Nat.mod_upper_bound n 256). lia.
    + apply Nat.lt_succ_r. apply Nat.div_lt_upper_bound; [lia|].
      apply Nat.le_lt_trans with 65535; auto.
    + rewrite (Nat.div_mod n 256) at 1 by lia. lia.
Qed.

(** A jump instruction with its offset, wherever it stands. *)
Lemma step_offset {S X} (μ : machine S X) cap chain lits pre b k w x y post st s : jump_form b = Some (k, w) ->
  step μ cap chain lits (pre ++ [num b; x; y] ++ post) (length pre) st s =
  jump_sem k (length pre) (if w then x + y * 256 else x) st s.
Proof.
  intros Hb. unfold step. cbn [app]. rewrite nth_pre, nth_pre1, nth_pre2. unfold need. rewrite num_of, Hb.
  replace (blen b) with 3 by (destruct b; try discriminate; reflexivity). reflexivity.
Qed.
Lemma back_result begin g : begin <= length (g_bytes g) ->
  if length (g_bytes g) - begin <=? 65535
  then exists b w x y, emit_backwards_jump begin g =
         Ok (with_loops (g_loops g ++ [(begin, length (g_bytes g))]) (emit3 b x y 0 g)) /\
         jump_form b = Some (JBack, w) /\ x <= 255 /\ y <= 255 /\
         length (g_bytes g) - begin = (if w then x + y * 256 else x)
  else emit_backwards_jump begin g = Err PyException.
Proof.
  intros Hl. unfold emit_backwards_jump, check_jump_offset. remember (length (g_bytes g) - begin) as n.
  destruct (n <=? 65535) eqn:El; [|reflexivity]. apply Nat.leb_le in El. cbn [Base.bind].
  assert (n mod 256 <= 255) by (pose proof (Nat.mod_upper_bound n 256); lia).
  assert (n / 256 <= 255).
  { apply Nat.lt_succ_r. apply Nat.div_lt_upper_bound; [lia|]. apply Nat.le_lt_trans with 65535; auto. }
  destruct (n <=? 255) eqn:E2.
  - apply Nat.leb_le in E2. exists B_jump_backward, false, (n mod 256), (n / 256). repeat split; auto.
    rewrite Nat.mod_small; lia.
  - exists B_jump2_backward, true, (n mod 256), (n / 256). repeat split; auto.
    rewrite (Nat.div_mod n 256) at 1 by lia. lia.
Qed.
