(** What the generator emits for an expression computes the value of the expression. *)
From Coq Require Import ZArith Bool String Ascii List Lia.
From Verif Require Import Base LexModel ParseModel BcModel BcInterp BcSpec BcCode BcSim BcEval BcMono BcAdapt BcScope BcEmit BcInl BcRep BcGen.
Import ListNotations.
Open Scope nat_scope.
Open Scope list_scope.

Section Expr.
Variable ce : cenv.
Notation fields := (ce_fields ce).
Notation enc_op := (enc_op fields).
Notation enc := (enc fields).
Notation emits := (emits fields).
Notation grows := (grows fields).
Notation rep := (rep fields).
Notation base := (base fields).
Notation impl := (impl fields).

Record st_ok (scs : list scope) (rho : env) : Prop := {
  s_ne : scs <> [];
  s_env : env_ok scs rho;
  s_outs : outs_ok scs;
  s_blocks : blocks_ok scs }.
Lemma st_ok_le scs scs' rho : st_ok scs rho -> scs_le scs scs' -> outs_ok scs' -> st_ok scs' rho.
Proof.
  intros [H1 H2 H3 H4] Hs Ho. split; auto.
  - intros ->. inversion Hs; subst. auto.
  - eapply env_ok_le; eauto.
  - eapply blocks_ok_le; eauto.
Qed.
Lemma st_depth scs rho : st_ok scs rho -> max_ctx scs = depth rho.
Proof. intros H. unfold max_ctx, depth. rewrite (env_ok_length _ _ (s_env _ _ H)). auto. Qed.

Record gen_res (e : src) (rho : env) (scs : list scope) (g : mg) (c0 : list item) (tl : list oper) (h : nat)
  (scs' : list scope) (g' : mg) (d : list item) (c0' : list item) (tl' : list oper) : Prop := {
  gs_code : code c0' tl' = code c0 tl ++ d;
  gs_rep : rep scs' g' c0' tl' (S h);
  gs_le : scs_le scs scs';
  gs_outs : outs_ok scs';
  gs_lits : exists x, g_lits g' = g_lits g ++ x;
  gs_sem : computes d (fun S X μ n s => eval fields e μ rho n s);
  gs_typ : exists p, typ d 0 = Some (1, p);
  gs_blk : if is_block e then c0' = c0 /\ exists b bo, tl' = (OBlk e rho, b, bo) :: tl /\ is_one_of b PUSH_BLOCK = true
           else is_one_of (lastb 0 g') PUSH_BLOCK = false;
  gs_end : end_ok g';
  gs_const : forall v, g_lits g = [] -> d = [IOp (OLit v)] -> g_lits g' = [] \/ exists l, g_lits g' = [l] /\ lit_value l = Some v;
  gs_blks : oblks d = created e rho }.
Definition gen_ok (e : src) : Prop := ok_src e = true -> forall rho scs g c0 tl h g' scs',
  st_ok scs rho -> rep scs g c0 tl h -> gen ce e (g, scs) = Ok (g', scs') ->
  exists d c0' tl', gen_res e rho scs g c0 tl h scs' g' d c0' tl'.
Lemma gs_st e rho scs g c0 tl h scs' g' d c0' tl' : gen_res e rho scs g c0 tl h scs' g' d c0' tl' ->
  st_ok scs rho -> st_ok scs' rho.
Proof. intros H Hs. eapply st_ok_le; eauto. apply H. apply H. Qed.

(** Operations that push a value and are not block literals. *)
Definition value_op (o : op) : Prop :=
  match o with
  | OBlk _ _ | ODup | OSetLoc _ _ | OSetArg _ _ | OSetFld _ _ => False
  | _ => True
  end.
Lemma value_bc C ls A o b bo : enc_op C ls A o b bo -> value_op o ->
  b <> B_dup /\ is_one_of b POP_X = false /\ is_one_of b PUSH_BLOCK = false.
Proof.
  intros He Hv. inversion He; subst; simpl in Hv; try contradiction;
    try (split; [discriminate|split; reflexivity]).
  destruct (send_bc_cases (nargs t)) as [Es | [Es | [Es | Es]]]; rewrite Es; (split; [discriminate|split; reflexivity]).
Qed.
Lemma value_end scs g c0 x tl h : rep scs g c0 (x :: tl) h -> value_op (o_op x) ->
  end_ok g /\ is_one_of (lastb 0 g) PUSH_BLOCK = false.
Proof.
  intros Hr Hv. pose proof (lastb_cons _ _ _ _ _ _ _ Hr) as El. pose proof (r_tl _ _ _ _ _ _ Hr) as Ht.
  inversion Ht as [|? ? He _]; subst. destruct (value_bc _ _ _ _ _ _ He Hv) as (B1 & B2 & B3).
  unfold end_ok. rewrite El. split; [split; [auto|congruence]|auto].
Qed.

Lemma value_oblks o : value_op o -> oblks [IOp o] = [].
Proof. destruct o; simpl; auto; contradiction. Qed.

(** One operation. *)
Lemma gen_one e rho scs g c0 tl h scs' g' o b bo : st_ok scs rho -> rep scs g c0 tl h ->
  emits (cx_of scs') (g_lits g') (A_of scs') g g' o b bo -> scs_le scs scs' -> outs_ok scs' ->
  op_ht o 0 = Some 1 -> op_noret o = true -> (2 <= length scs -> inner_op (o, b, bo)) -> value_op o ->
  is_block e = false -> created e rho = [] ->
  computes [IOp o] (fun S X μ n s => eval fields e μ rho n s) ->
  (forall v, g_lits g = [] -> o = OLit v -> g_lits g' = [] \/ exists l, g_lits g' = [l] /\ lit_value l = Some v) ->
  exists d c0' tl', gen_res e rho scs g c0 tl h scs' g' d c0' tl'.
Proof.
  intros Hst Hr He Hs Ho Hh Hn Hi Hv Hb Hcr Hc Hk.
  assert (Hh' : op_ht o h = Some (S h)).
  { pose proof (typ_shift h _ _ _ _ (typ_one _ _ _ Hh)) as T. rewrite !Nat.add_0_r in T.
    rewrite Nat.add_comm in T. apply typ_op in T. auto. }
  assert (Hr' : rep scs' g' c0 ((o, b, bo) :: tl) (S h)) by (eapply rep_emit; eauto).
  destruct (value_end _ _ _ _ _ _ Hr' Hv) as [E1 E2].
  exists [IOp o], c0, ((o, b, bo) :: tl). split; auto.
  - apply code_cons.
  - apply He.
  - exists 1. rewrite (typ_one _ _ _ Hh). reflexivity.
  - rewrite Hb. auto.
  - intros v Hg Eo. injection Eo as ->. eauto.
  - rewrite (value_oblks _ Hv), Hcr. reflexivity.
Qed.

Lemma gen_var n : gen_ok (SVar n).
Proof.
  intros Hok rho scs g c0 tl h g' scs' Hst Hr H. cbn [ok_src] in Hok. cbn [gen] in H. unfold gen_push_variable in H.
  destruct (find_var n scs) as [[[k f]|] scs1] eqn:Ef.
  - destruct (found_ok n scs rho k f scs1 (s_env _ _ Hst) Hok (s_outs _ _ Hst) (s_blocks _ _ Hst) Ef) as (F1 & F2 & F3 & F4 & F5).
    injection H as <- <-. destruct f as [i d|i]; cbn [ref_of] in *.
    + eapply gen_one; [exact Hst|exact Hr|apply emits_loc; [exact F5|exact F4]|..]; auto; try exact Logic.I; try (intros _; exact Logic.I); try discriminate.
      intros S X μ _ m st s. rewrite exec_op1. cbn [exec_op eval]. unfold read_var. rewrite F1. reflexivity.
    + eapply gen_one; [exact Hst|exact Hr|apply emits_arg; exact F4|..]; auto; try exact Logic.I; try (intros _; exact Logic.I); try discriminate.
      intros S X μ _ m st s. rewrite exec_op1. cbn [exec_op eval]. unfold read_var. rewrite F1. reflexivity.
  - destruct (not_found n scs rho scs1 (s_env _ _ Hst) (s_outs _ _ Hst) Ef) as (F1 & F2 & F3).
    assert (Hst1 : st_ok scs1 rho) by (eapply st_ok_le; eauto).
    rewrite find_text_position in H. destruct (position n fields) as [i|] eqn:Ep.
    + destruct (add_literal_if_absent (LS n) g) as [j g1] eqn:Ea.
      destruct (absent_spec _ _ _ _ Ea) as (x & -> & _).
      apply (f_equal (fun r => match r with Ok a => a | Err _ => (g, scs) end)) in H. cbv beta iota in H.
      injection H as <- <-.
      set (g1 := with_lits (g_lits g ++ x) g).
      destruct (emits_fld fields (cx_of (mark_self scs1)) (g_lits (emit_push_field_with_index i (max_ctx scs1) (max_ctx scs1) g1))
        (A_of (mark_self scs1)) g1 i (max_ctx scs1)) as (b & bo & He & _).
      { intros _. apply mark_self_fld. apply (s_ne _ _ Hst1). }
      assert (Hr1 : rep scs g1 c0 tl h) by (eapply rep_mono; eauto using scs_le_refl; unfold g1; simpl; eauto).
      edestruct (gen_one (SVar n) rho scs g1 c0 tl h) as (d & c0' & tl' & R); [exact Hst|exact Hr1|exact He|..]; auto.
      * eapply scs_le_trans; eauto using mark_self_le.
      * apply outs_ok_mark_self. auto.
      * intros Hl. unfold inner_op; cbn [o_op fst]. unfold max_ctx. rewrite (scs_le_length _ _ F2).
        destruct (length scs - 1) eqn:E; [lia|exact Logic.I].
      * exact Logic.I.
      * intros S X μ _ m st s. rewrite exec_op1. cbn [exec_op eval]. unfold read_var. rewrite F1, Ep, (st_depth _ _ Hst1). reflexivity.
      * discriminate.
      * exists d, c0', tl'. destruct R as [R1 R2 R3 R4 (y & R5) R6 R7 R8 R9 R10 R11]. split; auto.
        -- exists (x ++ y). rewrite R5. unfold g1. cbn [with_lits g_lits]. rewrite app_assoc. auto.
        -- intros v Hg Ed. exfalso. (* the operation is a field *)
           pose proof (em_bytes _ _ _ _ _ _ _ _ _ He). clear - R6 Ed F1 Ep.
           subst d. pose (μ := {| m_send := fun _ _ s => Stuck; m_super := fun _ _ s => Stuck; m_glob := fun _ s => Stuck;
             m_blk := fun _ s => Stuck; m_rd := fun _ _ s => Stuck; m_wr := fun _ _ _ s => Stuck; m_getf := fun _ _ s => Stuck;
             m_setf := fun _ _ _ s => Stuck; m_incf := fun _ _ s => Stuck; m_inc := fun _ s => Stuck; m_dec := fun _ s => Stuck;
             m_nlr := fun _ _ s => Stuck |} : machine unit unit).
           assert (L : lawful μ) by (intros ? ? ?; reflexivity).
           specialize (R6 _ _ μ L 0 [] tt). rewrite exec_op1 in R6. cbn [exec_op eval] in R6. unfold read_var in R6. rewrite F1, Ep in R6. discriminate.
    + apply (f_equal (fun r => match r with Ok a => a | Err _ => (g, scs) end)) in H. cbv beta iota in H.
      destruct (emits_global fields ce (cx_of scs') (g_lits g') (A_of scs') g scs1 n g' scs' H) as [(b & bo & He & Hb) Hs].
      { intros l _. apply keeps_refl. }
      assert (Hs' : scs_le scs scs').
      { eapply scs_le_trans; [exact F2|]. destruct Hs as [-> | ->]; auto using scs_le_refl, mark_self_le. }
      assert (Ho' : outs_ok scs') by (destruct Hs as [-> | ->]; auto using outs_ok_mark_self).
      assert (Hop : op_ht (glob_op n) 0 = Some 1 /\ op_noret (glob_op n) = true /\ inner_op (glob_op n, b, bo) /\ value_op (glob_op n)).
      { unfold glob_op, inner_op; cbn [o_op fst]. destruct (text_eqb n t_nil), (text_eqb n t_true), (text_eqb n t_false); cbn; auto. }
      destruct Hop as (P1 & P2 & P3 & P4).
      eapply gen_one; [exact Hst|exact Hr|exact He|..]; auto.
      * intros S X μ _ m st s. rewrite exec_op1. cbn [eval]. unfold read_var. rewrite F1, Ep. unfold glob_op.
        destruct (text_eqb n t_nil); [reflexivity|]. destruct (text_eqb n t_true); [reflexivity|]. destruct (text_eqb n t_false); reflexivity.
      * intros v Hg Eo. clear - H Hg Eo. unfold emit_push_global in H. unfold glob_op in Eo.
        destruct (text_eqb n t_nil).
        { injection H as <- <-. injection Eo as <-. left. exact Hg. }
        destruct (text_eqb n t_true).
        { injection Eo as <-. change (emit_push_constant (LV VTrue) g, scs1) with (emit_push_constant (LV VTrue) g, scs1) in H.
          apply (f_equal fst) in H. cbn [fst] in H. subst g'. destruct (push_constant_lits (LV VTrue) g) as (x & E1 & E2). rewrite E1, Hg.
          destruct (E2 Hg) as [-> | ->]; simpl; eauto. }
        destruct (text_eqb n t_false); [|discriminate].
        injection Eo as <-. change (emit_push_constant (LV VFalse) g, scs1) with (emit_push_constant (LV VFalse) g, scs1) in H.
          apply (f_equal fst) in H. cbn [fst] in H. subst g'. destruct (push_constant_lits (LV VFalse) g) as (x & E1 & E2). rewrite E1, Hg.
        destruct (E2 Hg) as [-> | ->]; simpl; eauto.
Qed.

Lemma np_refl L : np L L.
Proof. intros i l H _. exact H. Qed.
Lemma opcode_one ops o : opcode ops = [IOp o] -> exists b bo, ops = [(o, b, bo)].
Proof.
  destruct ops as [|x [|y r]].
  - discriminate.
  - destruct x as [[o' b] bo]. intros E. injection E as <-. eauto.
  - intros E. exfalso. apply (f_equal (@length item)) in E. unfold opcode in E. rewrite map_length, rev_length in E. simpl in E. lia.
Qed.
Lemma ops_oblks (P : oper -> Prop) ops : (forall x, P x -> oblks [IOp (o_op x)] = []) -> Forall P ops -> oblks (opcode ops) = [].
Proof.
  intros HP H. induction H as [|x ops Hx _ IH]; auto.
  change (x :: ops) with ([x] ++ ops). rewrite opcode_app, oblks_app, IH. apply HP, Hx.
Qed.
Lemma lit_oblks ops : Forall lit_op ops -> oblks (opcode ops) = [].
Proof. apply ops_oblks. intros [[o b] bo] H. unfold lit_op in H. cbn [o_op fst] in *. destruct o; simpl; auto; contradiction. Qed.
Lemma gen_literal l : gen_ok (SLit l).
Proof.
  intros Hok rho scs g c0 tl h g' scs' Hst Hr H. cbn [ok_src] in Hok. cbn [gen] in H.
  destruct (lit_ok_all ce l Hok _ _ _ _ H) as (ops & [L1 L2 L3 L4 L5 (p & L6) L7 L8]).
  pose proof (typ_shift h _ _ _ _ L6) as T. rewrite Nat.add_0_r, Nat.add_1_r in T.
  assert (Hr' : rep scs' g' c0 (ops ++ tl) (S h)).
  { eapply rep_seqs; eauto. apply L4, np_refl.
    eapply Forall_impl; [|exact L7]. intros [[o b] bo] Hx. unfold lit_op, inner_op in *. cbn [o_op fst] in *. destruct o; try contradiction; auto. }
  exists (opcode ops), c0, (ops ++ tl).
  assert (Hx : exists x ops', ops = x :: ops').
  { destruct ops; [discriminate|eauto]. }
  destruct Hx as (x & ops' & E). 
  assert (Hv : value_op (o_op x)) by (rewrite E in L7; inversion L7 as [|? ? Hx _]; unfold lit_op in Hx; destruct (o_op x); try contradiction; exact Logic.I).
  assert (Hr'' := Hr'). rewrite E in Hr''. cbn [app] in Hr''. destruct (value_end _ _ _ _ _ _ Hr'' Hv) as [E1 E2].
  split; auto.
  - unfold code. rewrite opcode_app, app_assoc. auto.
  - apply L3, Hst.
  - apply L1.
  - exists p. auto.
  - intros v Hg Eo. destruct (opcode_one _ _ Eo) as (b & bo & ->). eapply L8; eauto.
  - apply (lit_oblks _ L7).
Qed.

(** Operations on the value of an expression. *)
Lemma gen_unary e e' rho scs g c0 tl h scs1 g1 d1 c1 tl1 g' o b bo : gen_res e rho scs g c0 tl h scs1 g1 d1 c1 tl1 ->
  emits (cx_of scs1) (g_lits g') (A_of scs1) g1 g' o b bo ->
  op_ht o (S h) = Some (S h) -> op_ht o 1 = Some 1 -> op_noret o = true -> inner_op (o, b, bo) -> value_op o ->
  is_block e' = false -> created e' rho = created e rho ->
  computes (d1 ++ [IOp o]) (fun S X μ n s => eval fields e' μ rho n s) ->
  exists d c0' tl', gen_res e' rho scs g c0 tl h scs1 g' d c0' tl'.
Proof.
  intros [R1 R2 R3 R4 (y & R5) R6 (p & R7) R8 R9 R10 R11] He Hh Hh1 Hn Hi Hv Hb Hcr Hc.
  assert (Hr' : rep scs1 g' c1 ((o, b, bo) :: tl1) (S h)) by (eapply rep_emit; eauto using scs_le_refl).
  destruct (value_end _ _ _ _ _ _ Hr' Hv) as [E1 E2].
  exists (d1 ++ [IOp o]), c1, ((o, b, bo) :: tl1). split; auto.
  - rewrite code_cons, R1, app_assoc. auto.
  - destruct (em_lits _ _ _ _ _ _ _ _ _ He) as (z & ->). exists (y ++ z). rewrite R5, app_assoc. auto.
  - eexists. rewrite typ_app, R7. cbn [hseq]. rewrite (typ_one _ _ _ Hh1). reflexivity.
  - rewrite Hb. auto.
  - intros v Hg Eo. exfalso. destruct d1 as [|i [|j d1]]; try discriminate.
  - rewrite oblks_app, (value_oblks _ Hv), app_nil_r, Hcr. exact R11.
Qed.
Lemma gen_inc e : gen_ok e -> gen_ok (SInc e).
Proof.
  intros IH Hok rho scs g c0 tl h g' scs' Hst Hr H. cbn [ok_src] in Hok. cbn [gen] in H.
  destruct (gen ce e (g, scs)) as [[g1 scs1]|] eqn:E; [|discriminate]. cbn [Base.bind fst snd] in H. injection H as <- <-.
  destruct (IH Hok _ _ _ _ _ _ _ _ Hst Hr E) as (d & c1 & tl1 & R).
  eapply gen_unary; eauto using emits_inc; try exact Logic.I.
  intros S X μ Hμ n st s. rewrite exec_app, (gs_sem _ _ _ _ _ _ _ _ _ _ _ _ R) by auto. cbn [eval]. rewrite !bind_assoc. apply bind_ext. intros v s1.
  cbn [bind]. rewrite exec_op1. reflexivity.
Qed.
Lemma gen_dec e : gen_ok e -> gen_ok (SDec e).
Proof.
  intros IH Hok rho scs g c0 tl h g' scs' Hst Hr H. cbn [ok_src] in Hok. cbn [gen] in H.
  destruct (gen ce e (g, scs)) as [[g1 scs1]|] eqn:E; [|discriminate]. cbn [Base.bind fst snd] in H. injection H as <- <-.
  destruct (IH Hok _ _ _ _ _ _ _ _ Hst Hr E) as (d & c1 & tl1 & R).
  eapply gen_unary; eauto using emits_dec; try exact Logic.I.
  intros S X μ Hμ n st s. rewrite exec_app, (gs_sem _ _ _ _ _ _ _ _ _ _ _ _ R) by auto. cbn [eval]. rewrite !bind_assoc. apply bind_ext. intros v s1.
  cbn [bind]. rewrite exec_op1. reflexivity.
Qed.

(** * Assignments *)
Definition dupo : oper := (ODup, B_dup, [num B_dup]).
Lemma dups_ok n : forall scs g c0 tl h, rep scs g c0 tl (S h) -> rep scs (emit_dups n g) c0 (repeat dupo n ++ tl) (n + S h).
Proof.
  induction n as [|n IH]; intros scs g c0 tl h Hr; cbn [emit_dups repeat app]; auto.
  assert (Hr' : rep scs (emit1 B_dup 1 g) c0 (dupo :: tl) (S (S h))).
  { eapply rep_emit; [exact Hr|apply emits_dup|apply scs_le_refl|reflexivity|auto|intros _; exact Logic.I]. }
  apply IH in Hr'. replace (S n + S h) with (n + S (S h)) by lia.
  replace (dupo :: repeat dupo n ++ tl) with (repeat dupo n ++ dupo :: tl); auto.
  change (dupo :: repeat dupo n ++ tl) with ((dupo :: repeat dupo n) ++ tl). rewrite repeat_cons, <- app_assoc. auto.
Qed.
Lemma dups_lits n g : g_lits (emit_dups n g) = g_lits g.
Proof. revert g. induction n as [|n IH]; intros g; cbn [emit_dups]; auto. rewrite IH. reflexivity. Qed.
Lemma dups_exec {S X} (μ : machine S X) n k v st s : exec μ (opcode (repeat dupo n)) k (v :: st) s = Done (repeat v n ++ v :: st) s.
Proof.
  revert st. induction n as [|n IH]; intros st; cbn [repeat app]; auto.
  rewrite repeat_cons, opcode_app, exec_app. change (opcode [dupo]) with [IOp ODup]. rewrite exec_op1. cbn [exec_op pop bind].
  rewrite IH. f_equal. change (v :: repeat v n ++ v :: st) with ((v :: repeat v n) ++ v :: st). rewrite repeat_cons, <- app_assoc. auto.
Qed.

(** Writing one variable without the optimisation. *)
Record pop_res (n : text) (rho : env) (scs : list scope) (g : mg) (scs' : list scope) (g' : mg) (o : op) (b : bc) (bo : list nat) : Prop := {
  po_emit : emits (cx_of scs') (g_lits g') (A_of scs') g g' o b bo;
  po_le : scs_le scs scs';
  po_outs : outs_ok scs';
  po_set : is_set o;
  po_sem : forall S X (μ : machine S X) v st s, exec_op μ o (v :: st) s = bind (write_var fields μ rho n v s) (fun _ s => Done st s) }.
Lemma pop_var n rho scs g g' scs' : st_ok scs rho -> name_ok n = true -> gen_pop_variable ce n (g, scs) = Ok (g', scs') ->
  (exists o b bo, pop_res n rho scs g scs' g' o b bo) \/
  (exists i, optimize_inc_field i (max_ctx scs) g = Ok (true, g') /\ scs_le scs scs' /\ outs_ok scs' /\
     forall S X (μ : machine S X) v s, write_var fields μ rho n v s = m_setf μ (max_ctx scs) i v s).
Proof.
  intros Hst Hok H. unfold gen_pop_variable in H.
  destruct (find_var n scs) as [[[k f]|] scs1] eqn:Ef.
  - left. destruct (found_ok n scs rho k f scs1 (s_env _ _ Hst) Hok (s_outs _ _ Hst) (s_blocks _ _ Hst) Ef) as (F1 & F2 & F3 & F4 & F5).
    injection H as <- <-. destruct f as [i d|i]; cbn [ref_of] in *.
    + exists (OSetLoc k d), B_pop_local, [num B_pop_local; i; k]. split; auto; try exact Logic.I.
      * apply emits_setloc; [exact F5|exact F4].
      * intros S X μ v st s. cbn [exec_op pop]. unfold write_var. rewrite F1. reflexivity.
    + exists (OSetArg k i), B_pop_argument, [num B_pop_argument; i; k]. split; auto; try exact Logic.I.
      * apply emits_setarg; [exact F4|lia].
      * intros S X μ v st s. cbn [exec_op pop]. unfold write_var. rewrite F1. reflexivity.
  - destruct (not_found n scs rho scs1 (s_env _ _ Hst) (s_outs _ _ Hst) Ef) as (F1 & F2 & F3).
    assert (Hst1 : st_ok scs1 rho) by (eapply st_ok_le; eauto).
    assert (Em : max_ctx scs1 = max_ctx scs) by (unfold max_ctx; rewrite (scs_le_length _ _ F2); auto).
    rewrite find_text_position in H. destruct (position n fields) as [i|] eqn:Ep; [|discriminate].
    destruct (optimize_inc_field i (max_ctx scs1) g) as [[b g1]|] eqn:Eo; [|discriminate]. cbn [Base.bind fst snd] in H.
    apply (f_equal (fun r => match r with Ok a => a | Err _ => (g, scs) end)) in H. cbv beta iota in H.
    injection H as E1 <-. rewrite Em in Eo.
    assert (L : scs_le scs (mark_self scs1)) by (eapply scs_le_trans; eauto using mark_self_le).
    assert (Hw : forall S X (μ : machine S X) v s, write_var fields μ rho n v s = m_setf μ (max_ctx scs) i v s).
    { intros S X μ v s. unfold write_var. rewrite F1, Ep, <- (st_depth _ _ Hst). reflexivity. }
    destruct b.
    + right. subst g1. exists i. auto using outs_ok_mark_self.
    + left. assert (g1 = g).
      { revert Eo. unfold optimize_inc_field. destruct (peep_off g); [congruence|]. destruct (negb _); [congruence|].
        destruct (negb _); [congruence|]. destruct (negb _); [congruence|]. destruct (index_and_ctx_of_last _ _ _); [|discriminate]. cbn [Base.bind].
        destruct (_ && _); [|congruence]. destruct (remove_last 3 g); [|discriminate]. cbn [Base.bind]. congruence. }
      subst g1 g'. rewrite Em.
      destruct (emits_setfld fields (cx_of (mark_self scs1)) (g_lits (emit_pop_field_with_index i (max_ctx scs) g)) (A_of (mark_self scs1)) g i (max_ctx scs)) as (b & bo & He & _).
      { intros _. rewrite <- Em. apply mark_self_fld. apply (s_ne _ _ Hst1). }
      exists (OSetFld (max_ctx scs) i), b, bo. split; auto using outs_ok_mark_self; try exact Logic.I.
      intros S X μ v st s. cbn [exec_op pop]. rewrite Hw. reflexivity.
Qed.
Lemma set_bc C ls A o b bo : enc_op C ls A o b bo -> is_set o -> b <> B_dup /\ is_one_of b PUSH_BLOCK = false.
Proof. intros He Hs. inversion He; subst; simpl in Hs; try contradiction; (split; [discriminate|reflexivity]). Qed.
Lemma set_noret o : is_set o -> op_noret o = true.
Proof. destruct o; simpl; auto. Qed.

Record pops_res (vs : list text) (rho : env) (scs : list scope) (g : mg) (c0 : list item) (tl : list oper) (h : nat)
  (scs' : list scope) (g' : mg) (ops : list oper) : Prop := {
  ps_rep : rep scs' g' c0 (ops ++ tl) h;
  ps_le : scs_le scs scs';
  ps_outs : outs_ok scs';
  ps_lits : exists x, g_lits g' = g_lits g ++ x;
  ps_set : Forall (fun x => is_set (o_op x)) ops;
  ps_len : length ops = length vs;
  ps_sem : forall S X (μ : machine S X) n v st s,
    exec μ (opcode ops) n (repeat v (length vs) ++ st) s = bind (write_vars fields μ rho vs v s) (fun _ s => Done st s) }.
Lemma no_inc i k g b g' : optimize_inc_field i k g = Ok (b, g') -> lastb 0 g <> B_dup \/ lastb 1 g <> B_inc -> b = false.
Proof.
  intros H Hn. unfold optimize_inc_field, last_is in H. destruct (peep_off g); [congruence|].
  destruct Hn as [Hn|Hn].
  - rewrite (is_neq _ _ Hn) in H. simpl in H. congruence.
  - destruct (is (lastb 0 g) B_dup); simpl in H; [|congruence]. rewrite (is_neq _ _ Hn) in H. simpl in H. congruence.
Qed.
Lemma pops_one v rho scs g c0 tl h scs' g' o b bo : rep scs g c0 tl (S h) -> pop_res v rho scs g scs' g' o b bo ->
  pops_res [v] rho scs g c0 tl h scs' g' [(o, b, bo)].
Proof.
  intros Hr [P1 P2 P3 P4 P5].
  assert (Hr1 : rep scs' g' c0 ((o, b, bo) :: tl) h).
  { eapply rep_emit; [exact Hr|exact P1|exact P2|apply set_ht'; auto|intros _; apply set_noret; auto|intros _; apply inner_set; auto]. }
  split; auto.
  - apply P1.
  - intros S X μ n x st s. cbn [length repeat app]. change (opcode [(o, b, bo)]) with [IOp o].
    rewrite exec_op1, P5. cbn [write_vars]. rewrite bind_assoc. reflexivity.
Qed.
Lemma pops_ok vs : forall rho scs g c0 tl h g' scs', forallb name_ok vs = true -> st_ok scs rho ->
  rep scs g c0 tl (length vs + h) -> (lastb 0 g <> B_dup \/ lastb 1 g <> B_inc) ->
  gen_pop_variables ce vs (g, scs) = Ok (g', scs') -> exists ops, pops_res vs rho scs g c0 tl h scs' g' ops.
Proof.
  induction vs as [|v vs IH]; intros rho scs g c0 tl h g' scs' Hok Hst Hr Hn H; cbn [gen_pop_variables] in H.
  - injection H as <- <-. exists []. split; auto using scs_le_refl.
    + apply Hst.
    + exists []. rewrite app_nil_r. auto.
  - destruct (gen_pop_variable ce v (g, scs)) as [[g1 scs1]|] eqn:E1; [|discriminate]. cbn [Base.bind] in H.
    cbn [forallb] in Hok. apply andb_true_iff in Hok. destruct Hok as [Hok1 Hok2].
    destruct (pop_var v rho scs g g1 scs1 Hst Hok1 E1) as [(o & b & bo & P)|(i & P1 & _)].
    2:{ pose proof (no_inc _ _ _ _ _ P1 Hn). discriminate. }
    destruct (pops_one v rho scs g c0 tl (length vs + h) scs1 g1 o b bo Hr P) as [Q1 Q2 Q3 (x & Q4) Q5 _ Q6].
    assert (Hst1 : st_ok scs1 rho) by (eapply st_ok_le; eauto).
    assert (Hn1 : lastb 0 g1 <> B_dup \/ lastb 1 g1 <> B_inc).
    { left. rewrite (lastb_cons _ _ _ _ _ _ _ Q1). destruct P as [P1 _ _ P4 _]. eapply set_bc; [apply P1|auto]. }
    destruct (IH _ _ _ _ _ _ _ _ Hok2 Hst1 Q1 Hn1 H) as (ops & [R1 R2 R3 (y & R4) R5 R6 R7]).
    exists (ops ++ [(o, b, bo)]). split; auto.
    + rewrite <- app_assoc. exact R1.
    + eapply scs_le_trans; eauto.
    + exists (x ++ y). rewrite R4, Q4, app_assoc. auto.
    + apply Forall_app; auto.
    + rewrite app_length, R6. simpl. lia.
    + intros S X μ n w st s. rewrite opcode_app, exec_app.
      change (repeat w (length (v :: vs)) ++ st) with (repeat w (length [v]) ++ (repeat w (length vs) ++ st)).
      rewrite Q6. cbn [write_vars]. rewrite !bind_assoc. apply bind_ext. intros _ s1. cbn [bind]. apply R7.
Qed.
Lemma fold_lits vs : forall g, exists x, g_lits (fold_left (fun g v => snd (add_literal_if_absent (LS v) g)) vs g) = g_lits g ++ x /\
  fold_left (fun g v => snd (add_literal_if_absent (LS v) g)) vs g = with_lits (g_lits g ++ x) g.
Proof.
  induction vs as [|v vs IH]; intros g; cbn [fold_left].
  - exists []. rewrite app_nil_r. split; auto. destruct g; reflexivity.
  - destruct (add_literal_if_absent (LS v) g) as [i g1] eqn:E. destruct (absent_spec _ _ _ _ E) as (x & -> & _). cbn [snd].
    destruct (IH (with_lits (g_lits g ++ x) g)) as (y & E1 & E2). exists (x ++ y). rewrite app_assoc. cbn [with_lits g_lits] in *. split; auto.
Qed.
Lemma typ_dups n h : typ (opcode (repeat dupo n)) (S h) = Some (n + S h, n + S h).
Proof.
  revert h. induction n as [|n IH]; intros h; cbn [repeat].
  - reflexivity.
  - rewrite repeat_cons, opcode_app. rewrite typ_app. change (opcode [dupo]) with [IOp ODup].
    rewrite (typ_one ODup (S h) (S (S h))) by reflexivity. cbn [hseq]. rewrite IH. f_equal. f_equal; lia.
Qed.
Lemma typ_sets ops h : Forall (fun x => is_set (o_op x)) ops -> exists p, typ (opcode ops) (length ops + h) = Some (h, p).
Proof.
  revert h. induction ops as [|x ops IH]; intros h H.
  - eexists. reflexivity.
  - inversion H; subst. rewrite opcode_cons. destruct (IH (S h)) as (p & Hp); auto. eexists.
    rewrite typ_app. replace (length (x :: ops) + h) with (length ops + S h) by (simpl; lia). rewrite Hp. cbn [hseq].
    rewrite (typ_one _ _ _ (set_ht' _ h H2)). reflexivity.
Qed.
Lemma sets_oblks ops : Forall (fun x => is_set (o_op x)) ops -> oblks (opcode ops) = [].
Proof. apply ops_oblks. intros x Hx. apply set_oblks, Hx. Qed.
Lemma dups_oblks n : oblks (opcode (repeat dupo n)) = [].
Proof. apply (ops_oblks (fun x => o_op x = ODup)); [intros x -> ; reflexivity|]. apply Forall_forall. intros x Hx. apply repeat_spec in Hx. subst. reflexivity. Qed.
Lemma gen_asgn vs e : gen_ok e -> gen_ok (SAsgn vs e).
Proof.
  intros IH Hok rho scs g c0 tl h g' scs' Hst Hr H. cbn [ok_src] in Hok. cbn [gen] in H.
  apply andb_true_iff in Hok. destruct Hok as [Hok1 Hok2].
  assert (Hvs : vs <> [] /\ forallb name_ok vs = true) by (destruct vs; [discriminate|split; [discriminate|auto]]). destruct Hvs as [Hvs1 Hvs2].
  destruct (fold_lits vs g) as (x & _ & Ex). rewrite Ex in H. set (g0 := with_lits (g_lits g ++ x) g) in *.
  assert (Hr0 : rep scs g0 c0 tl h) by (eapply rep_mono; eauto using scs_le_refl; unfold g0; simpl; eauto).
  destruct (gen ce e (g0, scs)) as [[g1 scs1]|] eqn:E; [|discriminate]. cbn [Base.bind fst snd] in H.
  destruct (IH Hok2 _ _ _ _ _ _ _ _ Hst Hr0 E) as (d & c1 & tl1 & R).
  pose proof (gs_st _ _ _ _ _ _ _ _ _ _ _ _ R Hst) as Hst1.
  destruct R as [R1 R2 R3 R4 (y & R5) R6 (p & R7) _ R9 _ R11].
  set (n := length vs) in *.
  pose proof (dups_ok n _ _ _ _ _ R2) as Hd. set (g2 := emit_dups n g1) in *.
  assert (Hl2 : g_lits g2 = g_lits g1) by apply dups_lits.
  (* the plain case *)
  assert (Plain : forall ops, pops_res vs rho scs1 g2 c1 (repeat dupo n ++ tl1) (S h) scs' g' ops ->
    exists d c0' tl', gen_res (SAsgn vs e) rho scs g c0 tl h scs' g' d c0' tl').
  { intros ops [Q1 Q2 Q3 (z & Q4) Q5 Q6 Q7].
    exists (d ++ opcode (ops ++ repeat dupo n)), c1, (ops ++ repeat dupo n ++ tl1).
    assert (Hops : exists o ops', ops = o :: ops') by (destruct ops; [destruct vs; [congruence|discriminate]|eauto]).
    destruct Hops as (o & ops' & Eo).
    assert (Q1' := Q1). rewrite Eo in Q1'. cbn [app] in Q1'.
    pose proof (lastb_cons _ _ _ _ _ _ _ Q1') as El0.
    pose proof (r_tl _ _ _ _ _ _ Q1) as Ht.
    assert (Hset : is_set (o_op o)) by (rewrite Eo in Q5; inversion Q5; auto).
    assert (Henc : enc_op (cx_of scs') (g_lits g') (A_of scs') (o_op o) (o_bc o) (o_bs o)) by (rewrite Eo in Ht; inversion Ht; auto).
    destruct (set_bc _ _ _ _ _ _ Henc Hset) as [S1 S2].
    split; auto.
    - unfold code. rewrite app_assoc, opcode_app. change (c1 ++ opcode tl1 ++ opcode (ops ++ repeat dupo n)) with (c1 ++ opcode tl1 ++ opcode (ops ++ repeat dupo n)).
      rewrite app_assoc. fold (code c1 tl1). rewrite R1, <- app_assoc. reflexivity.
    - eapply scs_le_trans; eauto.
    - exists (x ++ y ++ z). rewrite Q4, Hl2, R5. unfold g0. cbn [with_lits g_lits]. rewrite !app_assoc. auto.
    - intros S X μ Hμ k st s. rewrite exec_app, (R6 _ _ _ Hμ). cbn [eval]. rewrite !bind_assoc. apply bind_ext. intros v s1.
      cbn [bind]. rewrite opcode_app, exec_app, dups_exec. cbn [bind]. rewrite Q7. rewrite bind_assoc. apply bind_ext. reflexivity.
    - destruct (typ_sets ops 1 Q5) as (q & Hq). eexists. rewrite typ_app, R7. cbn [hseq]. rewrite opcode_app, typ_app, typ_dups. cbn [hseq].
      rewrite Q6 in Hq. fold n in Hq. rewrite Hq. reflexivity.
    - cbn [is_block]. rewrite El0. auto.
    - split; [rewrite El0; auto|]. intros _ Hl1.
      rewrite (lastb_nth _ _ _ _ _ _ 1 Q1') in Hl1 by lia. rewrite (lastb_nth _ _ _ _ _ _ 2 Q1') by lia.
      destruct ops' as [|o2 ops'].
      + rewrite Eo in Q6. cbn [length] in Q6. fold n in Q6. rewrite <- Q6. cbn [repeat app map nth].
        rewrite <- (lastb_nth _ _ _ _ _ _ 0 R2) by lia. apply R9.
      + exfalso. cbn [app map nth] in Hl1. rewrite Eo in Q5, Ht. inversion Q5 as [|? ? _ K]; subst. inversion K; subst.
        cbn [app] in Ht. inversion Ht as [|? ? _ T1]; subst. inversion T1; subst.
        match goal with K1 : enc_op _ _ _ (o_op o2) _ _, K2 : is_set (o_op o2) |- _ => destruct (set_bc _ _ _ _ _ _ K1 K2); auto end.
    - intros v Hg Ed. exfalso. apply (f_equal (@length item)) in Ed. rewrite app_length in Ed. unfold opcode in Ed. rewrite map_length, rev_length, app_length, repeat_length, Q6 in Ed.
      fold n in Ed. destruct vs; [congruence|]. unfold n in Ed. cbn [length] in Ed. lia.
    - rewrite oblks_app, opcode_app, oblks_app, (sets_oblks _ Q5), dups_oblks, !app_nil_r. exact R11. }
  destruct vs as [|v [|w vs]]; [congruence| |].
  - cbn [gen_pop_variables] in H. destruct (gen_pop_variable ce v (g2, scs1)) as [[g3 scs3]|] eqn:E3; [|discriminate]. cbn [Base.bind] in H.
    injection H as <- <-. cbn [forallb] in Hvs2. rewrite andb_true_r in Hvs2. cbn [length] in n. subst n.
    destruct (pop_var v rho scs1 g2 g3 scs3 Hst1 Hvs2 E3) as [(o & b & bo & P)|(i & P1 & P2 & P3 & P4)].
    + apply (Plain [(o, b, bo)]). apply pops_one; auto.
    + cbn [repeat app] in Hd. cbn [Nat.add] in Hd.
      pose proof (inc_field_ok fields _ _ _ _ _ (code c0 tl) d p (max_ctx scs1) i true g3 Hd) as K. rewrite code_cons in K. rewrite R1 in K. cbn [o_op dupo fst] in K. rewrite <- app_assoc in K.
      specialize (K eq_refl R7 P1). cbv beta iota in K. destruct K as (d0 & c0' & K1 & K2 & K3 & K4).
      set (z := (OIncFldPush (max_ctx scs1) i, B_inc_field_push, [num B_inc_field_push; i; max_ctx scs1]) : oper) in *.
      assert (Hr3 : rep scs3 g3 c0' [z] (S h)).
      { eapply rep_mono; eauto. exists []. rewrite app_nil_r. auto. }
      destruct (value_end _ _ _ _ _ _ Hr3 Logic.I) as [V1 V2].
      exists (d0 ++ [IOp (OIncFldPush (max_ctx scs1) i)]), c0', [z]. split; auto.
      * eapply scs_le_trans; eauto.
      * exists (x ++ y). rewrite K4, Hl2, R5. unfold g0. cbn [with_lits g_lits]. rewrite app_assoc. auto.
      * intros S X μ Hμ k st s. cbn [eval].
        assert (Hv : bind (eval fields e μ rho k s) (fun v0 s0 => bind (write_vars fields μ rho [v] v0 s0) (fun _ s1 => Done (v0 :: st) s1)) =
          bind (exec μ d k st s) (fun st1 s1 => bind (exec μ [IOp ODup; IOp (OSetFld (max_ctx scs1) i)] k st1 s1) (fun st2 s2 => Done st2 s2))).
        { rewrite (R6 _ _ _ Hμ), bind_assoc. apply bind_ext. intros w s1. cbn [bind]. rewrite exec_1. cbn [exec_item exec_op pop bind]. rewrite exec_op1. cbn [exec_op pop].
          cbn [write_vars]. rewrite !bind_assoc, P4. apply bind_ext. intros [] s2. reflexivity. }
        rewrite bind_assoc. cbn [bind].
        transitivity (bind (eval fields e μ rho k s) (fun v0 s0 => bind (write_vars fields μ rho [v] v0 s0) (fun _ s1 => Done (v0 :: st) s1))).
        2:{ apply bind_ext. intros w s1. rewrite bind_assoc. reflexivity. }
        rewrite Hv, K1, !exec_app, bind_assoc. apply bind_ext. intros st1 s1. rewrite exec_op1. cbn [exec_op]. rewrite (Hμ _ _ _).
        rewrite exec_1. cbn [exec_item exec_op]. rewrite !bind_assoc. apply bind_ext. intros a s2. cbn [bind]. rewrite exec_op1. cbn [exec_op pop].
        rewrite !bind_assoc. apply bind_ext. intros a1 s3. cbn [bind]. rewrite exec_1. cbn [exec_item exec_op pop bind]. rewrite exec_op1. cbn [exec_op pop].
        rewrite !bind_assoc. apply bind_ext. intros [] s4. reflexivity.
      * rewrite K1 in R7. apply typ_split in R7. destruct R7 as (h1 & p1 & r & T1 & T2 & _).
        change [IOp (OFld (max_ctx scs1) i); IOp OInc] with ([IOp (OFld (max_ctx scs1) i)] ++ [IOp OInc]) in T2.
        apply typ_split in T2. destruct T2 as (h2 & p2 & r2 & T2 & T3 & _).
        apply typ_op in T2. apply typ_op in T3. cbn [op_ht] in T2. injection T2 as <-. cbn [op_ht] in T3.
        assert (h1 = 0). { destruct (1 <=? S h1); [|discriminate]. injection T3. auto. } subst h1.
        eexists. rewrite typ_app, T1. cbn [hseq]. reflexivity.
      * intros u Hg Ed. exfalso. destruct d0 as [|? [|]]; discriminate.
      * rewrite K1 in R11. rewrite oblks_app in R11 |- *. exact R11.
  - assert (Hn : lastb 0 g2 <> B_dup \/ lastb 1 g2 <> B_inc).
    { right. rewrite (lastb_nth _ _ _ _ _ _ 1 Hd) by lia. discriminate. }
    destruct (pops_ok _ _ _ _ _ _ (S h) _ _ Hvs2 Hst1 Hd Hn H) as (ops & Q). eauto.
Qed.
End Expr.
