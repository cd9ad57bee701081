(** In the AST interpreter, too, marks and caught exceptions implement returns to the home
    activation. *)
From Coq Require Import ZArith Bool String Ascii List Lia Permutation.
From Verif Require Import Base LexModel ParseModel BcModel BcInterp BcSpec BcTab BcCode BcEval BcNest BcProps
  VmModel VmSpec VmRel VmInv VmNlr VmCode AstModel AstSpec AstNode AstMerge AstGen AstRun AstVm AstVmRel.
Import ListNotations.
Open Scope nat_scope.
Open Scope list_scope.

(** * Compiled methods *)
Lemma ast_machine_lawful A call nlr mid fid : lawful (a_mach (ast_machine A call nlr mid fid)).
Proof. intros k i s. reflexivity. Qed.
Lemma ast_catches_all D mid d am : D mid = Some d -> ok_method (md_src d) -> ast_of d = Ok am -> plain_method d am ->
  returns_from_blocks (md_src d) = true -> ast_catches (ast_code D) mid = true.
Proof.
  intros E (O1 & O2 & _) Ha (S1 & S2 & S3 & _) Hr. unfold ast_catches, ast_code. rewrite E, Ha.
  destruct (compile_good _ _ _ _ _ _ O1 O2 S1 S2 S3 Ha) as (c & nds & -> & _ & Hc). rewrite (Hc Hr). reflexivity.
Qed.
Lemma ast_body_method D mid d am (μ : amachine vm stop) n s : D mid = Some d -> ok_method (md_src d) -> ast_of d = Ok am -> plain_method d am ->
  lawful (a_mach μ) ->
  ast_body (ast_code D) mid None μ n s =
  oeval_method (md_env d) (ast_ops μ) (ms_body (md_src d)) (ms_ret (md_src d)) (ms_env (md_src d)) n s.
Proof.
  intros E (O1 & O2 & _) Ha (S1 & S2 & S3 & S4 & S5 & _) Hμ. unfold ast_body, ast_code. rewrite E, Ha.
  apply ast_method; auto.
Qed.
Lemma label_spec nd b : AstRun.label_of nd b -> node_label nd = VmSpec.label_of b.
Proof. destruct b; cbn; try tauto. destruct nd; cbn; try tauto; auto. Qed.
Lemma params_spec b : params b = block_params b.
Proof. destruct b; reflexivity. Qed.
Lemma ast_body_block D mid d am (μ : amachine vm stop) l b rho n s : D mid = Some d -> ok_method (md_src d) -> ast_of d = Ok am -> plain_method d am ->
  lawful (a_mach μ) -> block_of (md_src d) l = Some (b, rho) ->
  ast_body (ast_code D) mid (Some l) μ n s = oeval_closure (md_env d) (ast_ops μ) b rho n s.
Proof.
  intros E (O1 & O2 & O3) Ha (S1 & S2 & S3 & _ & _ & S6) Hμ Hb. unfold ast_body, ast_code. rewrite E, Ha.
  apply find_some in Hb. destruct Hb as [Hb Hl]. cbn [fst] in Hl. apply Nat.eqb_eq in Hl.
  destruct (ast_blocks _ _ _ _ _ _ O1 O2 S1 S2 S3 Ha) as (nds & Hp & HF).
  fold (ms_env (md_src d)) in HF. fold (ms_blocks (md_src d)) in HF.
  assert (Find : exists nd, find (fun nd => node_label nd =? l) (blocks_of am) = Some nd /\
     bare nd = node_of (md_env d) b rho /\ inner (b, rho)).
  { destruct (find (fun nd => node_label nd =? l) (blocks_of am)) as [nd|] eqn:Ef.
    - exists nd. split; auto. apply find_some in Ef. destruct Ef as [Hin Hnl]. apply Nat.eqb_eq in Hnl.
      apply (Permutation_in _ (Permutation_sym Hp)) in Hin.
      assert (exists p, In p (ms_blocks (md_src d)) /\ bare nd = node_of (md_env d) (fst p) (snd p) /\ inner p) as ([b' rho'] & Hin' & En & Hi).
      { clear -HF Hin. induction HF as [|x y xs ys [H1 H2] _ IH]; [destruct Hin|]. destruct Hin as [-> |Hin].
        - exists y. split; [left; auto|auto]. - destruct (IH Hin) as (p & Hp & H). exists p. split; [right; auto|auto]. }
      cbn [fst snd] in En. assert (Hlab : VmSpec.label_of b' = l).
      { rewrite <- Hnl. symmetry. apply label_spec. eapply label_node; [apply Hi|exact En]. }
      assert (Eq : (b', rho') = (b, rho)).
      { clear -O3 Hin' Hb Hl Hlab. revert O3 Hin' Hb. generalize (ms_blocks (md_src d)). induction l0 as [|[c rc] q IH]; intros N H1 H2; [destruct H1|].
        cbn [map fst] in N. inversion N as [|? ? N1 N2]; subst. destruct H1 as [H1|H1], H2 as [H2|H2]; auto; [congruence| |].
        - exfalso. apply N1. injection H1 as <- <-. rewrite Hlab. apply in_map_iff. exists (b, rho). auto.
        - exfalso. apply N1. injection H2 as <- <-. rewrite <- Hlab. apply in_map_iff. exists (b', rho'). auto. }
      injection Eq as -> ->. auto.
    - exfalso. assert (exists nd, In nd nds /\ bare nd = node_of (md_env d) b rho /\ inner (b, rho)) as (nd & Hin & En & Hi).
      { clear -HF Hb. induction HF as [|x y xs ys [H1 H2] _ IH]; [destruct Hb|]. destruct Hb as [-> |Hb].
        - exists x. split; [left; auto|auto]. - destruct (IH Hb) as (p & Hp & H). exists p. split; [right; auto|auto]. }
      apply (Permutation_in _ Hp) in Hin. pose proof (List.find_none _ _ Ef nd Hin) as F. cbn in F. apply Nat.eqb_neq in F. apply F.
      rewrite <- Hl. apply label_spec. eapply label_node; [apply Hi|exact En]. }
  destruct Find as (nd & -> & En & Hi). apply ast_block; auto. left. rewrite params_spec. apply (S6 _ Hb).
Qed.

(** * Corresponding runs *)
Section Nlr.
Variable D : nat -> option mdef.
Variable A : aprog.
Hypothesis HA : ast_prog D A.
Notation P := (ap_vm A).
Definition home_prog : prog :=
  Prog (p_find P) (p_super P) (p_dnu P) (p_prim P) (source_body (sources D)) (ap_catch A) (p_inc P) (p_dec P).
Lemma home_prog_ok : ok_prog (sources D) home_prog.
Proof.
  destruct HA as (_ & Hc & Hh & H). split; [reflexivity|]. split; [exact Hh|].
  intros mid m E. unfold sources in E. destruct (D mid) as [d|] eqn:Ed; [|discriminate]. injection E as <-.
  destruct (H mid d Ed) as (Ho & am & Ha & Hp). split; auto. intros Hr. cbn [home_prog p_catch]. rewrite Hc.
  eapply ast_catches_all; eauto.
Qed.
Notation catch := (ap_catch A).
Notation inv := (inv (sources D) (ap_catch A)).
Notation Rs := (VmNlr.Rs (sources D) home_prog).
Notation Rx := (VmNlr.Rx (sources D) home_prog).
Notation rel2 := (VmNlr.rel2 (sources D) home_prog).
Lemma limz_none {B} (R1 : vm -> vm -> Prop) (R2 : stop -> stop -> vm -> vm -> Prop) (o : vout B) c : limz R1 R2 False False o c -> lim R1 R2 o c.
Proof. intros [H|[[[] _]|(o2 & J & H & [[[] _]|R])]]; [left|right]; eauto. Qed.

Lemma outer_self_er st fs k : forall v, outer_self st (map er fs) k v = outer_self st fs k v.
Proof.
  induction k as [|k IH]; intros v; cbn [outer_self]; auto. destruct (the_block st v) as [[[? ?] o]|]; auto.
  rewrite receiver_er. destruct (receiver fs o); auto.
Qed.

Section Machine.
Variables (stk : list (nat * nat * nat)) (fid mid d : nat).
Notation stk' := ((fid, mid, d) :: stk).
Variables call1 call2 : callee -> list value -> vm -> vout value.
Hypothesis Hcall : forall c args s, inv stk' s -> rel2 stk' (call1 c args s) (call2 c args (er_vm s)).
Notation μ1 := (ast_machine A call1 (ast_nlr A call1) mid fid).
Notation μ2 := (ast_machine A call2 (fun fid _ v s => areturn A call2 (fid :: ids stk) fid v s) mid fid).
Lemma known_rel2 t s : inv stk' s -> rel2 stk' (ast_known t s) (ast_known t (er_vm s)).
Proof.
  intros H. unfold ast_known. cbn [v_store er_vm]. destruct (assoc_glob t (s_globs (v_store s))); [apply rel2_done; auto|apply rel2_raise].
Qed.
Lemma unknown_rel2 k t s : inv stk' s -> rel2 stk' (ast_unknown A call1 fid k t s) (ast_unknown A call2 fid k t (er_vm s)).
Proof.
  intros H. unfold ast_unknown. cbn [v_store v_frames er_vm]. destruct (assoc_glob t (s_globs (v_store s))); [apply rel2_done; auto|].
  rewrite receiver_er. destruct (receiver (v_frames s) fid); [|apply rel2_raise]. rewrite outer_self_er.
  destruct (outer_self _ _ k v); [|apply rel2_raise].
  eapply (send2_rel2 (sources D) home_prog _ call1 call2); eauto.
Qed.
Lemma anlr_rel2 v s : catch mid = true -> 0 < d -> inv stk' s ->
  rel2 stk' (ast_nlr A call1 fid d v s) (areturn A call2 (fid :: ids stk) fid v (er_vm s)).
Proof.
  intros Hc Hd H. destruct (cur_here (sources D) home_prog stk fid mid d s H) as (fr & h & fh & A1 & A2 & A3 & A4 & A5 & A6).
  unfold ast_nlr, at_level. rewrite A3, A4. unfold areturn, home_of. cbn [v_frames er_vm v_store]. rewrite home_er, map_length.
  assert (Hl : fid < length (v_frames s)) by (apply nth_error_Some; congruence).
  pose proof (up_lt _ _ _ _ H _ _ _ A3) as Hu.
  rewrite (up_home _ _ _ _ _ _ A3 A4 A5) by lia.
  pose proof (i_frame _ _ _ _ H h fh A4) as F. unfold frame_ok in F. rewrite A5, A6 in F. specialize (F Hc).
  change (ids stk') with (fid :: ids stk) in F.
  destruct (existsb (Nat.eqb h) (fid :: ids stk)) eqn:Ex.
  - apply existsb_exists in Ex. destruct Ex as (y & Hy & E). apply Nat.eqb_eq in E. subst y.
    rewrite (proj2 F Hy). right. constructor. split; auto. split; [split; auto|]. split; [exact Hy|].
    exists fh. rewrite A6. auto.
  - destruct (f_live fh) eqn:El.
    { exfalso. assert (T : existsb (Nat.eqb h) (fid :: ids stk) = true); [|congruence].
      apply existsb_exists. exists h. split; [apply F; auto|apply Nat.eqb_refl]. }
    rewrite !receiver_er. assert (Er : receiver (v_frames s) h = nth_error (f_args fh) 0) by (unfold receiver; rewrite A4; reflexivity).
    rewrite Er. destruct (nth_error (f_args fh) 0) as [r|]; [|apply rel2_raise].
    destruct (receiver (v_frames s) fid) as [b|]; [|apply rel2_raise].
    eapply (send2_rel2 (sources D) home_prog _ call1 call2); eauto.
Qed.
Notation nl := (VmNlr.nl home_prog mid d).
Notation lb := (VmNlr.lb (sources D) mid d).
Lemma ops_rel :
  rel_ops (Rs stk') (Rx stk') False False d nl lb (assignable d) (ast_ops μ1) (fun _ => ast_ops μ2) /\
  rel_ops (flips (Rs stk')) (flipx (Rx stk')) False False d nl lb (assignable d) (ast_ops μ2) (fun _ => ast_ops μ1).
Proof.
  assert (send_ok : forall t l s, inv stk' s -> rel2 stk' (vm_send P call1 t l s) (vm_send P call2 t l (er_vm s))).
  { intros. eapply (send_rel2 _ home_prog home_prog_ok _ call1 call2); eauto. }
  assert (super_ok : forall t l s, inv stk' s -> rel2 stk' (vm_super P call1 mid t l s) (vm_super P call2 mid t l (er_vm s))).
  { intros. unfold vm_super. cbn [v_store er_vm]. destruct (p_super _ _ _ _); [auto|apply rel2_raise]. }
  assert (inc_ok : forall v s, inv stk' s -> rel2 stk' (vm_inc P v s) (vm_inc P v (er_vm s))).
  { intros. apply (res_rel2 _ home_prog). auto. }
  assert (ready_ok : forall t s, inv stk' s -> rel2 stk' (o_ready (ast_ops μ1) t s) (o_ready (ast_ops μ2) t (er_vm s))).
  { intros. cbn [ast_ops o_ready ast_machine a_super a_exn v_store er_vm]. destruct (p_super _ _ _ _); [apply rel2_done; auto|].
    apply (rel2_raise (sources D) home_prog). }
  assert (test_ok : forall a k v s, inv stk' s -> rel2 stk' (o_test (ast_ops μ1) a k v s) (o_test (ast_ops μ2) a k v (er_vm s))).
  { intros. cbn [ast_ops o_test ast_machine a_exn]. destruct (decided k v); [apply rel2_done; auto|]. apply (rel2_raise (sources D) home_prog). }
  pose proof (getf_rel2 (sources D) home_prog stk fid mid d) as getf_ok.
  pose proof (setf_rel2 (sources D) home_prog stk fid mid d) as setf_ok.
  pose proof (rd_rel2 (sources D) home_prog stk fid mid d) as rd_ok.
  pose proof (wr_rel2 (sources D) home_prog stk fid mid d) as wr_ok.
  pose proof (blk_rel2 (sources D) home_prog stk fid mid d) as blk_ok.
  assert (arr_ok : forall ls s, inv stk' s -> rel2 stk' (o_arr (ast_ops μ1) ls s) (o_arr (ast_ops μ2) ls (er_vm s))).
  { intros. apply (rel2_done (sources D) home_prog). auto. }
  split; constructor.
  1,17: intros t l s1 s2 [-> H]; apply limz_lim; cbn; apply rel2_lims; auto.
  1,16: intros t s1 s2 [-> H]; apply limz_lim; apply rel2_lims; apply ready_ok; auto.
  1,15: intros t l s1 s2 [-> H]; apply limz_lim; cbn; apply rel2_lims; auto.
  1,14: intros t s1 s2 [-> H]; apply limz_lim; cbn; apply rel2_lims; apply known_rel2; auto.
  1,13: intros k t s1 s2 [-> H]; apply limz_lim; cbn; apply rel2_lims; apply unknown_rel2; auto.
  1,12: intros l s1 s2 L [-> H]; apply limz_lim; cbn; apply rel2_lims; apply blk_ok; auto.
  1,11: intros k v s1 s2 [-> H]; apply limz_lim; cbn; apply rel2_lims; apply rd_ok; auto.
  1,10: intros k v x s1 s2 W [-> H]; apply limz_lim; cbn; apply rel2_lims; apply wr_ok; auto.
  1,9: intros k i s1 s2 [-> H]; apply limz_lim; cbn; apply rel2_lims; apply getf_ok; auto.
  1,8: intros k i v s1 s2 [-> H]; apply limz_lim; cbn; apply rel2_lims; apply setf_ok; auto.
  1,7: intros v s1 s2 [-> H]; apply limz_lim; cbn; apply rel2_lims; apply inc_ok; auto.
  1,6: intros v s1 s2 [-> H]; apply limz_lim; cbn [ast_ops o_dec ast_machine a_mach m_send]; apply rel2_lims; apply send_ok; auto.
  1,5: intros v s1 s2 [-> H]; apply limz_lim; cbn; apply rel2_lims; apply inc_ok; auto.
  1,4: intros ls s1 s2 [-> H]; apply limz_lim; apply rel2_lims; apply arr_ok; auto.
  1,3: intros a k v s1 s2 [-> H]; apply limz_lim; apply rel2_lims; apply test_ok; auto.
  1,2: intros k v s1 s2 (-> & Hd & Hc) [-> H]; apply limz_lim; cbn; apply rel2_lims; apply anlr_rel2; auto.
Qed.

Lemma amethod_rel2 m n s : d = 0 -> D mid = Some m -> inv stk' s ->
  rel2 stk' (ap_body A mid None μ1 n s) (asource_body D mid None μ2 n (er_vm s)).
Proof.
  intros Hd Em H. destruct HA as (Hb & _ & _ & Ho). destruct (Ho mid m Em) as (Hm & am & Ha & Hp).
  rewrite Hb, (ast_body_method D mid m am μ1 n s Em Hm Ha Hp (ast_machine_lawful _ _ _ _ _)). unfold asource_body. rewrite Em.
  destruct ops_rel as [R1 R2]. pose proof Hm as (O1 & O2 & _).
  assert (Es : sources D mid = Some (md_src m)) by (unfold sources; rewrite Em; reflexivity).
  assert (B : forall b rho', In (b, rho') (created_body (ms_body (md_src m)) (ms_ret (md_src m)) (ms_env (md_src m))) ->
    match b with SBlk l _ _ _ _ _ => lb l | _ => True end).
  { intros b rho' Hb'. destruct b as [| | | | | |label params locals ss ret period]; auto. pose proof (created_body_block _ _ _ _ _ Hb') as (_ & Hdp & _).
    apply created_incl in Hb'. exists (md_src m), (SBlk label params locals ss ret period), rho'. split; auto. split; [|rewrite Hdp; cbn; auto].
    apply (in_block_of (sources D) home_prog home_prog_ok mid _ _ _ Es Hb'). }
  assert (W : wr_ok (assignable d) (ms_env (md_src m))) by (split; [exact I|rewrite Hd; auto]).
  apply rel2_lims. split; apply limz_none.
  - eapply oeval_method_rel with (one := false) (g := fun _ => n); eauto using far_const; first [discriminate|split; auto].
  - eapply oeval_method_rel with (one := false) (g := fun _ => n); eauto using far_const; first [discriminate|split; auto].
Qed.
Lemma aclosure_rel2 m l b rho n s : D mid = Some m -> block_of (md_src m) l = Some (b, rho) -> d = Datatypes.S (depth rho) -> inv stk' s ->
  rel2 stk' (ap_body A mid (Some l) μ1 n s) (asource_body D mid (Some l) μ2 n (er_vm s)).
Proof.
  intros Em Hbl Hd H. destruct HA as (Hb & _ & _ & Ho). destruct (Ho mid m Em) as (Hm & am & Ha & Hp).
  rewrite Hb, (ast_body_block D mid m am μ1 l b rho n s Em Hm Ha Hp (ast_machine_lawful _ _ _ _ _) Hbl). unfold asource_body. rewrite Em, Hbl.
  destruct ops_rel as [R1 R2].
  assert (Es : sources D mid = Some (md_src m)) by (unfold sources; rewrite Em; reflexivity).
  destruct home_prog_ok as (_ & _ & Hok). destruct (Hok mid _ Es) as [_ Hc].
  apply block_of_in in Hbl. destruct Hbl as [Hi _].
  pose proof (ms_blocks_lit (sources D) home_prog home_prog_ok mid _ Es) as L. rewrite Forall_forall in L. specialize (L _ Hi).
  destruct L as (Hbk & Hl & L). cbn [fst snd] in *. destruct b as [| | | | | |label ps ls ss ret per]; try contradiction. destruct L as (O1 & O2 & Hr).
  assert (Dp : depth (add_level ps ls rho) = d).
  { rewrite Hd. unfold depth, add_level. cbn. lia. }
  assert (MB : okay_body d nl lb (assignable d) ss ret (add_level ps ls rho)).
  { split; [|exact Dp]. split; [|split].
    - split; [|rewrite Dp; auto]. cbn [add_level blocky]. destruct rho; [cbn in Hl; lia|]. split; auto.
    - intros Hr' Hpp. rewrite Dp in *. split; auto.
    - intros b rho' Hb'. destruct b as [| | | | | |label0 params locals ss0 ret0 period]; auto. pose proof (created_body_block _ _ _ _ _ Hb') as (_ & Hdp & _).
      assert (Hin : In (SBlk label0 params locals ss0 ret0 period, rho') (ms_blocks (md_src m))).
      { apply (body_within _ _ _ _ Hi). exact Hb'. }
      exists (md_src m), (SBlk label0 params locals ss0 ret0 period), rho'. split; auto. split; [|rewrite Hdp, Dp; auto].
      apply (in_block_of (sources D) home_prog home_prog_ok mid _ _ _ Es Hin). }
  apply rel2_lims. split; apply limz_none.
  - eapply oeval_closure_rel with (one := false) (g := fun _ => n); eauto using far_const; first [discriminate|split; auto].
  - eapply oeval_closure_rel with (one := false) (g := fun _ => n); eauto using far_const; first [discriminate|split; auto].
Qed.
End Machine.

Theorem ainvoke_rel2 n : forall stk c blk args s, inv stk s -> entry c blk args s ->
  rel2 stk (acall_at A n c blk args s) (aspec_at (asources D A) n (ids stk) c blk args (er_vm s)).
Proof.
  induction n as [|n IH]; intros stk c blk args s H He; [apply rel2_hang|]. cbn [acall_at aspec_at asources ap_vm].
  destruct c as [m|p].
  2:{ eapply (act_rel2 _ home_prog home_prog_ok); [| |apply HA|exact H].
      - intros. apply IH; cbn; auto.
      - intros m l o a args0 s0 H0 H1. apply IH; auto. cbn. exists m, a, args0. auto. }
  cbn [v_frames er_vm]. rewrite map_length. change (Vm (v_store s) (map er (v_frames s))) with (er_vm s).
  destruct blk as [[l o]|]; cbn [option_map fst snd].
  - destruct He as (m' & a & r & E & -> & Eo). inversion E; subst m'. clear E.
    destruct (i_obj _ _ _ _ H _ _ _ _ Eo) as (ms & b & rho & Em & Eb & C).
    unfold sources in Em. destruct (D m) as [d|] eqn:Ed; [|discriminate]. injection Em as <-.
    eapply (activate_rel2 (sources D) home_prog _ _ (Datatypes.S (depth rho))); eauto.
    { exists (depth rho), a, l, r. auto. }
    intros Hp. cbn [ap_body]. eapply aclosure_rel2; eauto.
    intros c args s0 H0. exact (IH _ c None args s0 H0 I).
  - eapply (activate_rel2 (sources D) home_prog _ _ 0); eauto. intros Hp. cbn [ap_body].
    destruct (D m) as [d|] eqn:Ed.
    + eapply amethod_rel2; eauto. intros c args0 s0 H0. exact (IH _ c None args0 s0 H0 I).
    + destruct HA as (Hb & _). rewrite Hb. cbn [asources ap_body]. unfold ast_body, ast_code, asource_body. rewrite Ed. apply rel2_stuck.
Qed.
End Nlr.
