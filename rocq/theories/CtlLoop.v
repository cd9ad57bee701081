(** The loop primitives of Block in the VM. *)
From Coq Require Import ZArith Bool String Ascii List Lia.
From Verif Require Import Base LexModel ParseModel BcModel BcInterp BcSpec VmModel VmSpec VmRel VmCode VmBc CtlSpec.
Import ListNotations.
Open Scope nat_scope.
Open Scope list_scope.

Section Loop.
Variable D : nat -> option mdef.
Variable P : prog.
Hypothesis HP : compiled_prog D P.
Lemma call_settles n c blk args s o : call_at P n c blk args s = o -> o <> Hang ->
  exists J, forall j, J <= j -> call_at P j c blk args s = o.
Proof.
  intros E N. destruct HP as (HB & _ & _).
  assert (S : same_prog P P) by (split; auto).
  pose proof (call_follows P P S) as F. rewrite HB in F.
  specialize (F (fun mid blk μ n s _ Hn => ex_intro _ n eq_refl) (bc_continuous _) (bc_monotone _) n c blk args s).
  rewrite lim_eq in F. destruct (F ltac:(congruence)) as [J HJ]. exists J. intros j Hj. rewrite HJ; auto.
Qed.
Lemma while_sound c b (on : bool) N n : forall s v s',
  vm_while (fun m l o args s => call_at P N (CMeth m) (Some (l, o)) args s) n c b on s = Done v s' ->
  v = VNil /\ repeats P (if on then VTrue else VFalse) c b s s'.
Proof.
  induction n as [|n IH]; intros s v s' H; cbn [vm_while] in H; [discriminate|].
  assert (EV : forall x s0 w s1, vm_value (fun m l o args s => call_at P N (CMeth m) (Some (l, o)) args s) x [] s0 = Done w s1 ->
    evaluates P x s0 w s1).
  { intros x s0 w s1 E. unfold vm_value in E. destruct (the_block (v_store s0) x) as [[[m l] o]|] eqn:EB; [|discriminate E].
    exists m, l, o, N. auto. }
  destruct (vm_value _ c [] s) as [w s1| | | |] eqn:Ec; try discriminate H. cbn [bind] in H. apply EV in Ec.
  destruct (takes (if on then OnTrue else OnFalse) w) eqn:Et.
  - assert (w = if on then VTrue else VFalse) as -> by (destruct on, w; try discriminate Et; reflexivity).
    destruct (vm_value _ b [] s1) as [w2 s2| | | |] eqn:Eb; try discriminate H. cbn [bind] in H. apply EV in Eb.
    destruct (IH _ _ _ H) as [-> R]. split; auto. eapply rep_round; eauto.
  - assert (v = VNil /\ s1 = s') as [-> ->] by (split; congruence). split; auto. apply rep_end with w; auto.
    intros ->. destruct on; discriminate Et.
Qed.
Lemma while_complete c b (on : bool) s s' : repeats P (if on then VTrue else VFalse) c b s s' ->
  exists J, forall j k, J <= j -> J <= k ->
    vm_while (fun m l o args s => call_at P j (CMeth m) (Some (l, o)) args s) k c b on s = Done VNil s'.
Proof.
  assert (EV : forall x s0 w s1, evaluates P x s0 w s1 -> exists J, forall j, J <= j ->
    vm_value (fun m l o args s => call_at P j (CMeth m) (Some (l, o)) args s) x [] s0 = Done w s1).
  { intros x s0 w s1 (m & l & o & n & EB & E). destruct (call_settles _ _ _ _ _ _ E ltac:(discriminate)) as [J HJ].
    exists J. intros j Hj. unfold vm_value. rewrite EB. auto. }
  induction 1 as [s v s' Ec Hv|s s1 v s2 s3 Ec Eb _ [J3 H3]].
  - destruct (EV _ _ _ _ Ec) as [J HJ]. exists (S J). intros j [|k] Hj Hk; [lia|]. cbn [vm_while]. rewrite HJ by lia. cbn [bind].
    assert (takes (if on then OnTrue else OnFalse) v = false) as -> by (destruct on, v; try reflexivity; exfalso; apply Hv; reflexivity).
    reflexivity.
  - destruct (EV _ _ _ _ Ec) as [J1 H1]. destruct (EV _ _ _ _ Eb) as [J2 H2]. exists (S (J1 + J2 + J3)).
    intros j [|k] Hj Hk; [lia|]. cbn [vm_while]. rewrite H1 by lia. cbn [bind].
    assert (takes (if on then OnTrue else OnFalse) (if on then VTrue else VFalse) = true) as -> by (destruct on; reflexivity).
    rewrite H2 by lia. cbn [bind]. apply H3; lia.
Qed.
Lemma loop_message p (on : bool) c b s : p_prim P p [c; b] = AWhile c b on (ARet VNil) ->
  (exists m l o, the_block (v_store s) c = Some (m, l, o)) -> (exists m l o, the_block (v_store s) b = Some (m, l, o)) ->
  forall v s', (exists n, call P n (CPrim p) [c; b] s = Done v s') <-> v = VNil /\ repeats P (if on then VTrue else VFalse) c b s s'.
Proof.
  intros EP (m1 & l1 & o1 & B1) (m2 & l2 & o2 & B2) v s'. split.
  - intros [[|n] H]; [discriminate H|]. unfold call in H. cbn [call_at] in H. rewrite EP in H. cbn [run_act] in H. rewrite B1, B2 in H.
    destruct (vm_while _ n c b on s) as [w s1| | | |] eqn:EW; try discriminate H. cbn [bind] in H.
    destruct (while_sound _ _ _ _ _ _ _ _ EW) as [-> R]. assert (v = VNil /\ s1 = s') as [-> ->] by (split; congruence). auto.
  - intros [-> R]. destruct (while_complete _ _ _ _ _ R) as [J HJ]. exists (S J). unfold call. cbn [call_at]. rewrite EP. cbn [run_act].
    rewrite B1, B2, HJ by lia. reflexivity.
Qed.
End Loop.
