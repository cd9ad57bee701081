(** Where a program run with care is not stuck, both interpreters do what it does. *)
From Coq Require Import ZArith Bool String Ascii List Lia.
From Verif Require Import Base LexModel ParseModel BcModel BcInterp BcSpec BcTab BcNest BcCode BcEval
  VmModel VmSpec VmRel VmNlr VmCode VmBc AstModel AstSpec AstNode AstVm AstVmRel AstVmCare.
Import ListNotations.
Open Scope nat_scope.
Open Scope list_scope.

(** * Runs with corresponding bodies *)
Section Lift.
Variables al1 al2 : Prop.
Notation lim := (limz eq eqx al1 al2).
Lemma limz_same {A} (o : vout A) : lim o (fun _ => o).
Proof. apply limz_lim. apply lim_same. Qed.
Lemma limz_shift {A} (o : vout A) c : lim o c -> lim o (fun j => match j with O => Hang | S j => c j end).
Proof.
  intros [H|[H|(o2 & J & H & R)]]; [left; auto|right; left; auto|right; right]. exists o2, (S J). split; auto.
  intros [|j] Hj; [lia|]. apply H. lia.
Qed.
Variable P : prog.
Section Step.
Variable call : callee -> list value -> vm -> vout value.
Variable enter : nat -> nat -> nat -> list value -> vm -> vout value.
Variable call' : nat -> callee -> list value -> vm -> vout value.
Variable enter' : nat -> nat -> nat -> nat -> list value -> vm -> vout value.
Hypothesis HC : forall c args s, lim (call c args s) (fun j => call' j c args s).
Hypothesis HE : forall m l o args s, lim (enter m l o args s) (fun j => enter' j m l o args s).
Lemma send_limz sel args s : lim (vm_send P call sel args s) (fun j => vm_send P (call' j) sel args s).
Proof.
  unfold vm_send. destruct args as [|r args]; [apply limz_same|]. destruct (p_find P sel r (v_store s)); auto.
  destruct (p_dnu P sel (r :: args) (v_store s)) as [args' st].
  destruct (p_find P t_dnu r st); auto. apply limz_same.
Qed.
Lemma send2_limz sel r a s : lim (vm_send2 P call sel r a s) (fun j => vm_send2 P (call' j) sel r a s).
Proof. unfold vm_send2. destruct (p_find P sel r (v_store s)); auto. apply limz_same. Qed.
Lemma super_limz m sel args s : lim (vm_super P call m sel args s) (fun j => vm_super P (call' j) m sel args s).
Proof. unfold vm_super. destruct (p_super P m sel (v_store s)); auto. apply limz_same. Qed.
Lemma value_limz b args s : lim (vm_value enter b args s) (fun j => vm_value (enter' j) b args s).
Proof. unfold vm_value. destruct (the_block (v_store s) b) as [[[m l] o]|]; auto. apply limz_same. Qed.
Lemma vwhile_limz c b on n : forall g s, far n g -> lim (vm_while enter n c b on s) (fun j => vm_while (enter' j) (g j) c b on s).
Proof.
  induction n as [|n IH]; intros g s Hg; cbn [vm_while]; [apply limz_hang|].
  destruct Hg as [K Hg]. apply limz_late with (K := K) (c := fun j => bind (vm_value (enter' j) c [] s) (fun v s =>
           if takes (if on then OnTrue else OnFalse) v then bind (vm_value (enter' j) b [] s) (fun _ s => vm_while (enter' j) (pred (g j)) c b on s)
           else Done VNil s)).
  2:{ intros j Hj. specialize (Hg j Hj). destruct (g j); [lia|reflexivity]. }
  apply limz_bind; [apply value_limz|]. intros v s1 s2 <-. destruct (takes _ v); [|apply limz_same].
  apply limz_bind; [apply value_limz|]. intros _ s3 s4 <-. apply IH. apply far_pred. exists K. exact Hg.
Qed.
Lemma act_limz n g a : far n g -> forall s, lim (run_act P call enter n a s) (fun j => run_act P (call' j) (enter' j) (g j) a s).
Proof.
  intros Hg. induction a as [v|e|f k IH|sel args k IH|c args k IH|b args k IH|c b on k IH]; intros s; cbn [run_act]; try apply limz_same.
  - apply IH.
  - apply limz_bind; [apply send_limz|]. intros v s1 s2 <-. apply IH.
  - apply limz_bind; [apply HC|]. intros v s1 s2 <-. apply IH.
  - apply limz_bind; [apply value_limz|]. intros v s1 s2 <-. apply IH.
  - destruct (the_block (v_store s) b); [|apply limz_same]. destruct (the_block (v_store s) c); [|apply limz_same].
    apply limz_bind; [apply vwhile_limz; auto|]. intros _ s1 s2 <-. apply IH.
Qed.
End Step.
Lemma activation_limz body body' mid args outer s :
  lim (body (length (v_frames s)) (push_frame mid args outer s)) (fun j => body' j (length (v_frames s)) (push_frame mid args outer s)) ->
  lim (activation body mid args outer s) (fun j => activation (body' j) mid args outer s).
Proof.
  unfold activation. set (o := body _ _). intros [H|[[Ha H]|(o2 & J & H & R)]].
  - rewrite H. apply limz_hang.
  - rewrite H. apply limz_alarm1. exact Ha.
  - apply limz_late with (K := J) (c := fun _ => match o2 with
      | Done v s | Retn v s => Done v s
      | Abrupt (XRet h v) s1 => if h =? length (v_frames s) then Done v s1 else Abrupt (XRet h v) s1
      | Abrupt (XPy e) s => Abrupt (XPy e) s | Hang => Hang | Stuck => Stuck end).
    2:{ intros j Hj. rewrite (H j Hj). reflexivity. }
    destruct R as [[Ha ->]|R]; [apply limz_alarm2; exact Ha|].
    destruct R as [a s1 s2 <-|v s1 s2 <-|x1 x2 s1 s2 [<- <-]|]; apply limz_same.
Qed.

(** Invoking a primitive that only answers or fails. *)
Definition simple (call : callee -> list value -> vm -> vout value) : Prop :=
  forall p args s, match p_prim P p args with
  | ARet v => call (CPrim p) args s = Hang \/ call (CPrim p) args s = Done v s
  | AErr e => call (CPrim p) args s = Hang \/ call (CPrim p) args s = raise e s
  | _ => True
  end.
Definition simply (call : nat -> callee -> list value -> vm -> vout value) : Prop :=
  forall p args s, match p_prim P p args with
  | ARet v => exists J, forall j, J <= j -> call j (CPrim p) args s = Done v s
  | AErr e => exists J, forall j, J <= j -> call j (CPrim p) args s = raise e s
  | _ => True
  end.
Lemma grun_simple B n stk : simple (fun c args s => grun P B n stk c None args s).
Proof.
  intros p args s. destruct n as [|n]; cbn [grun]; destruct (p_prim P p args); auto.
Qed.
Lemma grun_simply B stk : simply (fun j c args s => grun P B j stk c None args s).
Proof.
  intros p args s. destruct (p_prim P p args) eqn:E; auto; exists 1; intros [|j] Hj; try lia; cbn [grun]; rewrite E; reflexivity.
Qed.
Definition corresponds (B1 B2 : body_run) : Prop := forall call1 call2 stk mid blk fid n g s,
  (forall c args s, lim (call1 c args s) (fun j => call2 j c args s)) -> simple call1 -> simply call2 -> far n g ->
  lim (B1 call1 stk mid blk fid n s) (fun j => B2 (call2 j) stk mid blk fid (g j) s).
Lemma far_id n : far n (fun j => j).
Proof. exists n. auto. Qed.
Theorem grun_limz B1 B2 : corresponds B1 B2 -> forall n stk c blk args s,
  lim (grun P B1 n stk c blk args s) (fun j => grun P B2 j stk c blk args s).
Proof.
  intros HB. induction n as [|n IH]; intros stk c blk args s; [apply limz_hang|].
  destruct c as [m|p].
  - eapply limz_ext.
    2:{ intros j. instantiate (1 := fun j => match j with O => Hang | S j => _ j end). destruct j as [|j]; [reflexivity|].
        cbn [grun]. match goal with |- _ = ?x => instantiate (1 := fun j => ltac:(let y := eval pattern j in x in match y with ?f _ => exact (f j) end)) end.
        reflexivity. }
    apply limz_shift. cbn [grun]. 
    apply (activation_limz (fun fid => B1 (fun c args s0 => grun P B1 n (length (v_frames s) :: stk) c None args s0) (fid :: stk) m (option_map fst blk) fid n)
      (fun j fid => B2 (fun c args s0 => grun P B2 j (length (v_frames s) :: stk) c None args s0) (fid :: stk) m (option_map fst blk) fid j)).
    apply (HB _ (fun j c args s0 => grun P B2 j (length (v_frames s) :: stk) c None args s0)); [intros; apply IH|apply grun_simple|apply grun_simply|apply far_id].
  - apply limz_ext with (c := fun j => match j with O => Hang | S j =>
      run_act P (fun c args s => grun P B2 j stk c None args s) (fun m l o args s => grun P B2 j stk (CMeth m) (Some (l, o)) args s) j (p_prim P p args) s end).
    2:{ intros [|j]; reflexivity. }
    apply limz_shift. cbn [grun].
    apply (act_limz _ _ (fun j c args s => grun P B2 j stk c None args s) (fun j m l o args s => grun P B2 j stk (CMeth m) (Some (l, o)) args s));
      [intros; apply IH|intros; apply IH|apply far_id].
Qed.
End Lift.

(** * Corresponding operations *)
(** No conditions on returns, blocks and assignments. *)
Notation any_ops := (fun al1 al2 d => rel_ops eq eqx al1 al2 d (fun _ => True) (fun _ => True) (fun _ _ => True)).

(** Blocks of a source that assigns one variable at a time do so, too. *)
Notation one_each := (Forall (fun p : src * env => single (fst p) = true)).
Lemma blocks_single : forall e, single e = true ->
  (forall rho, one_each (blocks e rho)) /\
  match e with SBlk _ _ _ ss ret _ => forall rho, one_each (body_blocks ss ret rho) | _ => True end.
Proof.
  induction e as [n|l|sup r sel args IHr IHa|e IH|e IH|vs e IH|label ps ls ss ret per IHs IHr] using src_ind';
    intros Ho; pose proof Ho as Hself; cbn [single] in Ho; repeat rewrite andb_true_iff in Ho.
  - split; auto. intros. constructor.
  - split; auto. intros. constructor.
  - split; auto. intros rho. rewrite blocks_send. destruct Ho as [Ho1 Ho2]. destruct (IHr Ho1) as [R1 R2].
    assert (IHa' : Forall (fun a => (forall rho, one_each (blocks a rho)) /\ forall rho, one_each (blocks_inl a rho)) args).
    { apply Forall_forall. intros a Ha. rewrite Forall_forall in IHa. rewrite forallb_forall in Ho2.
      destruct (IHa a Ha (Ho2 a Ha)) as [A1 A2]. split; auto. intros rho'. destruct a; cbn [blocks_inl]; auto. }
    assert (R3 : one_each (blocks_inl r rho)) by (destruct r; cbn [blocks_inl]; auto).
    assert (A1 : one_each (flat_map (fun a => blocks_inl a rho) args)).
    { apply Forall_flat_map. eapply Forall_impl; [|exact IHa']. intros a [_ H]. auto. }
    assert (A2 : one_each (flat_map (fun a => blocks a rho) args)).
    { apply Forall_flat_map. eapply Forall_impl; [|exact IHa']. intros a [H _]. auto. }
    destruct (special_form sup r sel args) as [[]|]; apply Forall_app; auto.
  - split; auto. apply (IH Ho).
  - split; auto. apply (IH Ho).
  - split; auto. destruct Ho as [_ Ho]. apply (IH Ho).
  - destruct Ho as [Ho1 Ho2].
    assert (B : forall rho, one_each (body_blocks ss ret rho)).
    { intros rho. unfold body_blocks. apply Forall_app. split.
      - apply Forall_flat_map. apply Forall_forall. intros a Ha. rewrite Forall_forall in IHs. rewrite forallb_forall in Ho1.
        apply (IHs a Ha (Ho1 a Ha)).
      - destruct ret; auto. apply IHr; auto. }
    split; auto. intros rho. cbn [blocks]. constructor; [exact Hself|]. apply (B (add_level ps ls rho)).
Qed.
Lemma method_blocks_single m : single_method m = true -> one_each (ms_blocks m).
Proof.
  unfold single_method. rewrite andb_true_iff. intros [H1 H2]. unfold ms_blocks, body_blocks. apply Forall_app. split.
  - apply Forall_flat_map. apply Forall_forall. intros a Ha. rewrite forallb_forall in H1. apply (blocks_single a (H1 a Ha)).
  - destruct (ms_ret m) as [e|]; auto. apply (blocks_single e H2).
Qed.
Lemma method_blocks_lit m : ok_method m -> Forall (lit_ok m) (ms_blocks m).
Proof.
  intros (H1 & H2 & _). unfold ms_blocks, body_blocks. apply Forall_app. split.
  - apply Forall_flat_map. apply Forall_forall. intros a Ha. rewrite forallb_forall in H1.
    apply (blocks_lit m a (H1 a Ha)); [|exact I|cbn; lia]. intros Er. unfold returns_from_blocks.
    apply orb_true_iff. left. apply existsb_exists. eauto.
  - destruct (ms_ret m) as [e|] eqn:Er; auto. apply (blocks_lit m e H2); [|exact I|cbn; lia].
    intros E'. unfold returns_from_blocks. rewrite Er, E'. apply orb_true_r.
Qed.
Section Bodies.
Variables al1 al2 : Prop.
Notation lim := (limz eq eqx al1 al2).
Variable D : nat -> option mdef.
Hypothesis HD : forall mid d, D mid = Some d -> ok_method (md_src d) /\ single_method (md_src d) = true.
Lemma obody_limz mid blk o1 o2 n g s : far n g -> (forall d, any_ops al1 al2 d o1 o2) ->
  lim (obody D mid blk o1 n s) (fun j => obody D mid blk (o2 j) (g j) s).
Proof.
  intros Hg H. unfold obody. destruct (D mid) as [d|] eqn:E; [|apply limz_same].
  destruct (HD mid d E) as [Ho Hs]. pose proof Ho as (O1 & O2 & _).
  destruct blk as [l|].
  - destruct (block_of (md_src d) l) as [[b rho]|] eqn:Eb; [|apply limz_same]. apply block_of_in in Eb as [Eb _].
    pose proof (method_blocks_lit _ Ho) as L. rewrite Forall_forall in L. specialize (L _ Eb).
    pose proof (method_blocks_single _ Hs) as L1. rewrite Forall_forall in L1. specialize (L1 _ Eb). destruct L as (Lb & Ll & L). cbn [fst snd] in *.
    destruct b as [| | | | | |label ps ls ss ret per]; try contradiction. destruct L as (B1 & B2 & _).
    eapply oeval_closure_rel with (one := true) (d := depth (add_level ps ls rho)); eauto; [discriminate|].
    split; [|reflexivity]. split; [split; auto|].
    + cbn [add_level blocky]. destruct rho; [cbn in Ll; lia|]. split; auto.
    + split; auto. intros b rho' _. destruct b; auto.
  - unfold single_method in Hs. apply andb_true_iff in Hs.
    eapply oeval_method_rel with (one := true) (d := 0); eauto; [discriminate|split; [exact I|auto]|]. intros b rho' _. destruct b; auto.
Qed.
End Bodies.

(** * The two interpreters *)
Lemma outer_self_dyn st fs k : forall n r a b, outer_self st fs k r = Some a -> the_block st a = None -> self_of st fs n r = Some b -> b = a.
Proof.
  induction k as [|k IH]; intros n r a b H1 H2 H3; cbn [outer_self] in H1.
  - injection H1 as ->. destruct n; cbn [self_of] in H3; rewrite H2 in H3; congruence.
  - destruct (the_block st r) as [[[m l] o]|] eqn:E; [|discriminate]. destruct (receiver fs o) as [w|] eqn:Er; [|discriminate].
    destruct n; cbn [self_of] in H3; rewrite E in H3; [discriminate|]. rewrite Er in H3. eapply IH; eauto.
Qed.
Section Two.
Variable A : aprog.
Notation P := (ap_vm A).
Hypothesis HN : number_messages P.
Definition ast_body_ops (call : callee -> list value -> vm -> vout value) (stk : list nat) (mid fid : nat) : ops vm stop :=
  ast_ops (ast_machine A call (fun _ _ v s => areturn A call stk fid v s) mid fid).
Definition bc_body_ops (call : callee -> list value -> vm -> vout value) (stk : list nat) (mid fid : nat) : ops vm stop :=
  bc_ops (vm_machine P call (fun _ _ v s => do_return P call stk fid v s) mid fid).
Lemma number_simple call t f v s : number_message P t f -> simple P call -> small v = true ->
  vm_send P call t [v; VInt 1] s = Hang \/ vm_send P call t [v; VInt 1] s = of_res (f v) s.
Proof.
  intros H Hc Hv. destruct (H v (v_store s) Hv) as (p & E1 & E2). unfold vm_send. rewrite E1. specialize (Hc p [v; VInt 1] s). rewrite E2 in Hc.
  destruct (f v); exact Hc.
Qed.
Lemma number_simply call t f v s : number_message P t f -> simply P call -> small v = true ->
  exists J, forall j, J <= j -> vm_send P (call j) t [v; VInt 1] s = of_res (f v) s.
Proof.
  intros H Hc Hv. destruct (H v (v_store s) Hv) as (p & E1 & E2). unfold vm_send. rewrite E1. specialize (Hc p [v; VInt 1] s). rewrite E2 in Hc.
  destruct (f v); exact Hc.
Qed.
Lemma limz_settles al1 al2 {B} (o : vout B) c : (exists J, forall j, J <= j -> c j = o) -> limz eq eqx al1 al2 o c.
Proof. intros [J H]. eapply limz_late with (K := J); [apply limz_same|]. intros j Hj. symmetry. auto. Qed.

Ltac ops := cbn [o_send o_ready o_super o_glob o_unk o_blk o_rd o_wr o_getf o_setf o_inc o_dec o_plus o_arr o_test o_home
  care_ops ast_body_ops bc_body_ops ast_ops bc_ops ast_machine vm_machine a_mach a_glob a_super a_arr a_exn
  m_send m_super m_glob m_blk m_rd m_wr m_getf m_setf m_inc m_dec m_nlr].
Section Ops.
Variable call1 : callee -> list value -> vm -> vout value.
Variable call2 : nat -> callee -> list value -> vm -> vout value.
Hypothesis H1 : simple P call1.
Hypothesis H2 : simply P call2.
Variables (stk : list nat) (mid fid : nat).
Lemma care_ast : (forall c args s, limz eq eqx True False (call1 c args s) (fun j => call2 j c args s)) ->
  forall d, any_ops True False d (care_ops P call1 stk mid fid) (fun j => ast_body_ops (call2 j) stk mid fid).
Proof.
  intros HC d. constructor; intros; subst; try match goal with H : eqx _ _ _ _ |- _ => destruct H; subst end; ops; try apply limz_same.
  - apply send_limz; auto.
  - destruct (p_super _ _ _ _); [apply limz_same|apply limz_alarm1; exact I].
  - apply super_limz; auto.
  - unfold ast_known. destruct (assoc_glob _ _); [apply limz_same|apply limz_alarm1; exact I].
  - unfold care_unknown, ast_unknown. destruct (assoc_glob _ _); [apply limz_same|].
    destruct (receiver _ _); [|apply limz_alarm1; exact I]. destruct (self_dynamically _ _); [|apply limz_alarm1; exact I].
    destruct (outer_self _ _ _ _); [|apply limz_alarm1; exact I]. destruct (the_block _ _); [apply limz_alarm1; exact I|].
    apply send2_limz; auto.
  - destruct (small v) eqn:Ev; [|apply limz_alarm1; exact I]. apply limz_settles. unfold vm_dec. eapply number_simply; eauto. apply HN.
  - destruct (small v) eqn:Ev; [|apply limz_alarm1; exact I]. apply limz_same.
  - apply limz_alarm1; exact I.
  - destruct (decided k v); [apply limz_same|apply limz_alarm1; exact I].
  - unfold care_return, areturn. destruct (existsb _ _); [apply limz_same|]. destruct (receiver _ _) as [r|]; [|apply limz_alarm1; exact I].
    destruct (receiver _ fid) as [b|]; [|apply limz_alarm1; exact I]. destruct (the_block _ _); [apply limz_alarm1; exact I|].
    pose proof (send2_limz True False P call1 call2 HC t_escaped r b s2) as L.
    destruct (vm_send2 P call1 t_escaped r b s2); try (apply limz_alarm1; exact I); exact L.
Qed.
Lemma care_bc : (forall c args s, limz eq eqx True False (call1 c args s) (fun j => call2 j c args s)) ->
  forall d, any_ops True False d (care_ops P call1 stk mid fid) (fun j => bc_body_ops (call2 j) stk mid fid).
Proof.
  intros HC d. constructor; intros; subst; try match goal with H : eqx _ _ _ _ |- _ => destruct H; subst end; ops; try apply limz_same.
  - apply send_limz; auto.
  - destruct (p_super _ _ _ _); [apply limz_same|apply limz_alarm1; exact I].
  - apply super_limz; auto.
  - unfold vm_glob. destruct (assoc_glob _ _); [apply limz_same|apply limz_alarm1; exact I].
  - unfold care_unknown, vm_glob. destruct (assoc_glob _ _); [apply limz_same|].
    destruct (receiver _ _) as [r|] eqn:Er; [|apply limz_alarm1; exact I]. destruct (self_dynamically _ _) as [b|] eqn:Es; [|apply limz_alarm1; exact I].
    destruct (outer_self _ _ _ _) as [a|] eqn:Eo; [|apply limz_alarm1; exact I]. destruct (the_block _ _) eqn:Eb; [apply limz_alarm1; exact I|].
    unfold self_dynamically in Es. rewrite Er in Es. rewrite (outer_self_dyn _ _ _ _ _ _ _ Eo Eb Es). apply send2_limz; auto.
  - destruct (small v) eqn:Ev; [|apply limz_alarm1; exact I]. apply limz_same.
  - destruct (small v) eqn:Ev; [|apply limz_alarm1; exact I]. apply limz_settles. unfold vm_inc. eapply number_simply; eauto. apply HN.
  - apply limz_alarm1; exact I.
  - destruct (decided k v); [apply limz_same|apply limz_alarm1; exact I].
  - unfold care_return, do_return. destruct (existsb _ _); [apply limz_same|]. destruct (receiver _ _) as [r|]; [|apply limz_alarm1; exact I].
    destruct (receiver _ fid) as [b|]; [|apply limz_alarm1; exact I]. destruct (the_block _ _) eqn:Eb; [apply limz_alarm1; exact I|].
    assert (Es : self_of (v_store s2) (v_frames s2) (length (v_frames s2)) r = Some r) by (destruct (length _); cbn [self_of]; rewrite Eb; reflexivity).
    rewrite Es. pose proof (send2_limz True False P call1 call2 HC t_escaped r b s2) as L.
    destruct (vm_send2 P call1 t_escaped r b s2); try (apply limz_alarm1; exact I); [|apply limz_hang].
    apply (limz_bind eq eqx True False _ _ (fun v s => Retn v s) (fun _ v s => Retn v s) L). intros. subst. apply limz_same.
Qed.
Lemma ast_care : (forall c args s, limz eq eqx False True (call1 c args s) (fun j => call2 j c args s)) ->
  forall d, any_ops False True d (ast_body_ops call1 stk mid fid) (fun j => care_ops P (call2 j) stk mid fid).
Proof.
  intros HC d. constructor; intros; subst; try match goal with H : eqx _ _ _ _ |- _ => destruct H; subst end; ops; try apply limz_same.
  - apply send_limz; auto.
  - destruct (p_super _ _ _ _); [apply limz_same|apply limz_alarm2; exact I].
  - apply super_limz; auto.
  - unfold ast_known. destruct (assoc_glob _ _); [apply limz_same|apply limz_alarm2; exact I].
  - unfold care_unknown, ast_unknown. destruct (assoc_glob _ _); [apply limz_same|].
    destruct (receiver _ _); [|apply limz_alarm2; exact I]. destruct (self_dynamically _ _); [|apply limz_alarm2; exact I].
    destruct (outer_self _ _ _ _); [|apply limz_alarm2; exact I]. destruct (the_block _ _); [apply limz_alarm2; exact I|].
    apply send2_limz; auto.
  - destruct (small v) eqn:Ev; [|apply limz_alarm2; exact I]. unfold vm_dec.
    destruct (number_simple call1 t_minus (p_dec P) v s2 (proj2 HN) H1 Ev) as [-> | ->]; [apply limz_hang|apply limz_same].
  - destruct (small v) eqn:Ev; [|apply limz_alarm2; exact I]. apply limz_same.
  - apply limz_alarm2; exact I.
  - destruct (decided k v); [apply limz_same|apply limz_alarm2; exact I].
  - unfold care_return, areturn. destruct (existsb _ _); [apply limz_same|]. destruct (receiver _ _) as [r|]; [|apply limz_alarm2; exact I].
    destruct (receiver _ fid) as [b|]; [|apply limz_alarm2; exact I]. destruct (the_block _ _); [apply limz_alarm2; exact I|].
    pose proof (send2_limz False True P call1 call2 HC t_escaped r b s2) as [L|[[[] _]|(o2 & J & Hj & L)]]; [left; exact L|].
    apply limz_late with (K := J) (c := fun _ => match o2 with Done _ _ | Retn _ _ => Stuck | o => o end); [|intros j Hj'; rewrite (Hj j Hj'); destruct o2; reflexivity].
    destruct L as [[_ ->]|L]; [apply limz_alarm2; exact I|]. destruct L as [v0 t1 t2 _|v0 t1 t2 _|x1 x2 t1 t2 [<- <-]|]; try (apply limz_alarm2; exact I). apply limz_same.
Qed.
Lemma bc_care : (forall c args s, limz eq eqx False True (call1 c args s) (fun j => call2 j c args s)) ->
  forall d, any_ops False True d (bc_body_ops call1 stk mid fid) (fun j => care_ops P (call2 j) stk mid fid).
Proof.
  intros HC d. constructor; intros; subst; try match goal with H : eqx _ _ _ _ |- _ => destruct H; subst end; ops; try apply limz_same.
  - apply send_limz; auto.
  - destruct (p_super _ _ _ _); [apply limz_same|apply limz_alarm2; exact I].
  - apply super_limz; auto.
  - unfold vm_glob. destruct (assoc_glob _ _); [apply limz_same|apply limz_alarm2; exact I].
  - unfold care_unknown, vm_glob. destruct (assoc_glob _ _); [apply limz_same|].
    destruct (receiver _ _) as [r|] eqn:Er; [|apply limz_alarm2; exact I]. destruct (self_dynamically _ _) as [b|] eqn:Es; [|apply limz_alarm2; exact I].
    destruct (outer_self _ _ _ _) as [a|] eqn:Eo; [|apply limz_alarm2; exact I]. destruct (the_block _ _) eqn:Eb; [apply limz_alarm2; exact I|].
    unfold self_dynamically in Es. rewrite Er in Es. rewrite (outer_self_dyn _ _ _ _ _ _ _ Eo Eb Es). apply send2_limz; auto.
  - destruct (small v) eqn:Ev; [|apply limz_alarm2; exact I]. apply limz_same.
  - destruct (small v) eqn:Ev; [|apply limz_alarm2; exact I]. unfold vm_inc.
    destruct (number_simple call1 t_plus (p_inc P) v s2 (proj1 HN) H1 Ev) as [-> | ->]; [apply limz_hang|apply limz_same].
  - apply limz_alarm2; exact I.
  - destruct (decided k v); [apply limz_same|apply limz_alarm2; exact I].
  - unfold care_return, do_return. destruct (existsb _ _); [apply limz_same|]. destruct (receiver _ _) as [r|]; [|apply limz_alarm2; exact I].
    destruct (receiver _ fid) as [b|]; [|apply limz_alarm2; exact I]. destruct (the_block _ _) eqn:Eb; [apply limz_alarm2; exact I|].
    assert (Es : self_of (v_store s2) (v_frames s2) (length (v_frames s2)) r = Some r) by (destruct (length _); cbn [self_of]; rewrite Eb; reflexivity).
    rewrite Es. pose proof (send2_limz False True P call1 call2 HC t_escaped r b s2) as [L|[[[] _]|(o2 & J & Hj & L)]]; [rewrite L; apply limz_hang|].
    apply limz_late with (K := J) (c := fun _ => match o2 with Done _ _ | Retn _ _ => Stuck | o => o end); [|intros j Hj'; rewrite (Hj j Hj'); destruct o2; reflexivity].
    destruct L as [[_ ->]|L]; [apply limz_alarm2; exact I|]. destruct L as [v0 t1 t2 _|v0 t1 t2 _|x1 x2 t1 t2 [<- <-]|]; try (apply limz_alarm2; exact I). apply limz_same.
Qed.
End Ops.
End Two.

(** * Whole programs *)
Section Whole.
Variable D : nat -> option mdef.
Variable A : aprog.
Notation P := (ap_vm A).
Hypothesis HN : number_messages P.
Hypothesis HD : forall mid d, D mid = Some d -> ok_method (md_src d) /\ single_method (md_src d) = true.
Hypothesis HF : forall mid d, D mid = Some d -> ce_fields (md_env d) = ms_fields (md_src d).
Definition ast_bodies : body_run := fun call stk mid blk fid =>
  asource_body D mid blk (ast_machine (asources D A) call (fun fid _ v s => areturn (asources D A) call stk fid v s) mid fid).
Definition bc_bodies : body_run := fun call stk mid blk fid =>
  source_body (sources D) mid blk (vm_machine (from_source D P) call (fun fid _ v s => do_return (from_source D P) call stk fid v s) mid fid).
Lemma ast_runs n stk c blk args s : aspec_at (asources D A) n stk c blk args s = grun P ast_bodies n stk c blk args s.
Proof. reflexivity. Qed.
Lemma bc_runs n stk c blk args s : spec_at (from_source D P) n stk c blk args s = grun P bc_bodies n stk c blk args s.
Proof. reflexivity. Qed.
Lemma ast_bodies_ops call stk mid blk fid n s : ast_bodies call stk mid blk fid n s = obody D mid blk (ast_body_ops A call stk mid fid) n s.
Proof. reflexivity. Qed.
Lemma bc_bodies_ops call stk mid blk fid n s : bc_bodies call stk mid blk fid n s = obody D mid blk (bc_body_ops A call stk mid fid) n s.
Proof.
  unfold bc_bodies, source_body, obody, sources. destruct (D mid) as [d|] eqn:E; [|reflexivity]. cbn [option_map]. pose proof (HF mid d E) as F.
  destruct blk as [l|].
  - destruct (block_of (md_src d) l) as [[b rho]|]; [|reflexivity]. destruct b; try reflexivity. cbn [eval_closure oeval_closure].
    rewrite <- F. unfold bc_body_ops. rewrite bc_block. reflexivity.
  - rewrite <- F. unfold bc_body_ops. rewrite bc_method. reflexivity.
Qed.
Lemma care_ast_run : corresponds True False P (care_body D P) ast_bodies.
Proof.
  intros call1 call2 stk mid blk fid n g s HC H1 H2 Hg. eapply limz_ext; [|intros j; symmetry; apply ast_bodies_ops].
  unfold care_body. apply obody_limz; auto. apply care_ast; auto.
Qed.
Lemma care_bc_run : corresponds True False P (care_body D P) bc_bodies.
Proof.
  intros call1 call2 stk mid blk fid n g s HC H1 H2 Hg. eapply limz_ext; [|intros j; symmetry; apply bc_bodies_ops].
  unfold care_body. apply obody_limz; auto. apply care_bc; auto.
Qed.
Lemma ast_care_run : corresponds False True P ast_bodies (care_body D P).
Proof.
  intros call1 call2 stk mid blk fid n g s HC H1 H2 Hg. rewrite ast_bodies_ops.
  unfold care_body. apply obody_limz; auto. apply ast_care; auto.
Qed.
Lemma bc_care_run : corresponds False True P bc_bodies (care_body D P).
Proof.
  intros call1 call2 stk mid blk fid n g s HC H1 H2 Hg. rewrite bc_bodies_ops.
  unfold care_body. apply obody_limz; auto. apply bc_care; auto.
Qed.
(** If the program run with care is not stuck, both evaluations of the sources have its outcome. *)
Lemma eq_out {B} (o1 o2 : vout B) : rel_out eq eqx o1 o2 -> o1 = o2.
Proof. intros [v s1 s2 ->|v s1 s2 ->|x1 x2 s1 s2 [-> ->]|]; reflexivity. Qed.
Lemma both_one c args s (B1 B2 : body_run) : (forall n, care D P n c args s <> Stuck) ->
  corresponds False True P B1 (care_body D P) -> corresponds True False P (care_body D P) B2 ->
  forall n, grun P B1 n [] c None args s <> Hang ->
  exists K, forall k, K <= k -> grun P B2 k [] c None args s = grun P B1 n [] c None args s.
Proof.
  intros Hc H1 H2 n Hn.
  destruct (grun_limz False True P _ _ H1 n [] c None args s) as [H|[[[] _]|(o2 & J & Hj & [[_ ->]|R])]].
  - contradiction.
  - destruct (Hc J). apply Hj. auto.
  - apply eq_out in R. subst o2.
    destruct (grun_limz True False P _ _ H2 J [] c None args s) as [H|[[_ H]|(o2 & J2 & Hj2 & [[[] _]|R])]].
    + rewrite (Hj J) in H by auto. contradiction.
    + destruct (Hc J H).
    + apply eq_out in R. subst o2. exists J2. intros k Hk. rewrite (Hj2 k Hk). apply Hj. auto.
Qed.
Lemma both_ways c args s : (forall n, care D P n c args s <> Stuck) ->
  same_outcome (fun n s => aspec (asources D A) n c args s) (fun n s => spec (from_source D P) n c args s) s.
Proof.
  intros Hc. split; intros n Hn.
  - destruct (both_one c args s ast_bodies bc_bodies Hc ast_care_run care_bc_run n Hn) as [K HK]. exists K. exact HK.
  - destruct (both_one c args s bc_bodies ast_bodies Hc bc_care_run care_ast_run n Hn) as [K HK]. exists K. exact HK.
Qed.
End Whole.

(** A run with care that ends, ends so with any more steps. *)
Section Settled.
Variable D : nat -> option mdef.
Variable A : aprog.
Notation P := (ap_vm A).
Hypothesis HD : forall mid d, D mid = Some d -> ok_method (md_src d) /\ single_method (md_src d) = true.
Lemma care_care : corresponds False False P (care_body D P) (care_body D P).
Proof.
  intros call1 call2 stk mid blk fid n g s HC H1 H2 Hg. unfold care_body. apply obody_limz; auto. intros d.
  constructor; intros; subst; try match goal with H : eqx _ _ _ _ |- _ => destruct H; subst end; cbn [o_send o_ready o_super o_glob o_unk o_blk o_rd o_wr
    o_getf o_setf o_inc o_dec o_plus o_arr o_test o_home care_ops]; try apply limz_same.
  - apply send_limz; auto.
  - apply super_limz; auto.
  - unfold care_unknown. destruct (assoc_glob _ _); [apply limz_same|].
    destruct (receiver _ _); [|apply limz_same]. destruct (self_dynamically _ _); [|apply limz_same].
    destruct (outer_self _ _ _ _); [|apply limz_same]. destruct (the_block _ _); [apply limz_same|].
    apply send2_limz; auto.
  - unfold care_return. destruct (existsb _ _); [apply limz_same|]. destruct (receiver _ _) as [r|]; [|apply limz_same].
    destruct (receiver _ fid) as [b|]; [|apply limz_same]. destruct (the_block _ _); [apply limz_same|].
    pose proof (send2_limz False False P call1 call2 HC t_escaped r b s2) as [L|[[[] _]|(o2 & J & Hj & [[[] _]|L])]].
    + rewrite L. left. reflexivity.
    + apply limz_late with (K := J) (c := fun _ => match o2 with Done _ _ | Retn _ _ => Stuck | o => o end); [|intros j Hj'; rewrite (Hj j Hj'); destruct o2; reflexivity].
      apply eq_out in L. rewrite L. destruct o2; apply limz_same.
Qed.
Lemma care_settled c args s n k : care D P n c args s <> Hang -> care D P k c args s <> Hang -> care D P n c args s = care D P k c args s.
Proof.
  intros Hn Hk. unfold care in *.
  destruct (grun_limz False False P _ _ care_care n [] c None args s) as [H|[[[] _]|(o1 & J1 & Hj1 & [[[] _]|R1])]]; [contradiction|].
  destruct (grun_limz False False P _ _ care_care k [] c None args s) as [H|[[[] _]|(o2 & J2 & Hj2 & [[[] _]|R2])]]; [contradiction|].
  apply eq_out in R1. apply eq_out in R2. rewrite R1, R2, <- (Hj1 (J1 + J2)), <- (Hj2 (J1 + J2)) by lia. reflexivity.
Qed.
End Settled.
