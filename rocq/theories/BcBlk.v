(** Blocks, and with them every expression: the compiled method of a block computes its value. *)
From Coq Require Import ZArith Bool String Ascii List Lia.
From Verif Require Import Base LexModel ParseModel BcModel BcInterp BcSpec BcCode BcSim BcEval BcMono BcAdapt BcScope BcEmit BcInl BcRep BcGen BcExpr BcMsg.
Import ListNotations.
Open Scope nat_scope.
Open Scope list_scope.

Section Blk.
Variable ce : cenv.
Notation fields := (ce_fields ce).
Notation enc_op := (enc_op fields).
Notation enc := (enc fields).
Notation emits := (emits fields).
Notation rep := (rep fields).
Notation base := (base fields).
Notation fin_rep := (fin_rep fields).
Notation impl := (impl fields).
Notation gen_res := (gen_res ce).
Notation gen_ok := (gen_ok ce).

(** * Trivial blocks *)
Lemma last_emit1 b e g : lastb 0 (emit1 b e g) = b /\ lastb 1 (emit1 b e g) = lastb 0 g.
Proof. split; [reflexivity|]. unfold lastb. simpl. destruct (g_last g); reflexivity. Qed.
Lemma single scs g c0 x tl h : rep scs g c0 (x :: tl) h -> length (g_bytes g) = blen (o_bc x) ->
  code c0 (x :: tl) = [IOp (o_op x)] /\ g_bytes g = o_bs x.
Proof.
  intros Hr Hl. destruct (r_enc _ _ _ _ _ _ Hr) as (bs0 & P & He & Hb). pose proof (r_tl _ _ _ _ _ _ Hr) as Ht.
  inversion Ht as [|? ? Hx Ht']; subst. rewrite (len_op _ _ _ _ _ _ _ Hx), Hb, obytes_cons, !app_length in Hl.
  assert (E0 : bs0 = []) by (apply length_zero_iff_nil; lia).
  assert (E1 : obytes tl = []) by (apply length_zero_iff_nil; lia).
  apply (enc_nonnil _ _ _ _ _ _ _ _ _ He) in E0 as E2.
  pose proof (enc_ops fields _ _ _ 0 tl Ht') as He'. apply (enc_nonnil _ _ _ _ _ _ _ _ _ He') in E1 as E3.
  split.
  - rewrite code_cons. unfold code. rewrite E2, E3. reflexivity.
  - rewrite Hb, obytes_cons, E0, E1. reflexivity.
Qed.
Lemma const_op C ls A o b bo : enc_op C ls A o b bo -> is_one_of b PUSH_CONST = true -> exists v, o = OLit v.
Proof. intros H Hb. inversion H; subst; try discriminate; eauto. destruct (send_bc_cases (nargs t)) as [Es | [Es | [Es | Es]]]; rewrite Es in Hb; discriminate. Qed.
Lemma const_nolits C A v b bo : enc_op C [] A (OLit v) b bo ->
  (v = VInt 0 /\ bo = [num B_push_0]) \/ (v = VInt 1 /\ bo = [num B_push_1]) \/ (v = VNil /\ bo = [num B_push_nil]).
Proof. intros H. inversion H; subst; auto; try discriminate. destruct i; discriminate. Qed.
Lemma glob_op C ls A o b bo : enc_op C ls A o b bo -> b = B_push_global -> exists i t, o = OGlob t /\ nth_error ls i = Some (LS t) /\ plain_global t = true.
Proof. intros H Hb. inversion H; subst; try discriminate; eauto. destruct (send_bc_cases (nargs t)) as [Es | [Es | [Es | Es]]]; congruence. Qed.

Lemma triv_block scs g c0 tl h rho mx tr : rep scs g c0 tl h -> 2 <= length scs -> length scs = S (length rho) ->
  (forall v, code c0 tl = [IOp (OLit v)] -> g_lits g = [] \/ exists l, g_lits g = [l] /\ lit_value l = Some v) ->
  assemble_trivial true mx (emit1 B_return_local 0 g) = Ok tr -> triv_ok tr rho (code c0 tl) ORet.
Proof.
  intros Hr Hl Hrho Hc H. unfold assemble_trivial in H. destruct (last_emit1 B_return_local 0 g) as [L0 L1].
  unfold last_is, last_one_of in H. rewrite L0, L1, is_refl in H.
  assert (Hlen : length (g_bytes (emit1 B_return_local 0 g)) = S (length (g_bytes g))) by (simpl; rewrite app_length; simpl; lia).
  destruct (is_one_of (lastb 0 g) PUSH_CONST) eqn:E1.
  { destruct (last_split _ _ _ _ _ _ Hr) as (x & tl1 & -> & Ex); [intros E; rewrite E in E1; discriminate|].
    pose proof (r_tl _ _ _ _ _ _ Hr) as Ht. inversion Ht as [|? ? Hx _]; subst. rewrite <- Ex in *.
    destruct (const_op _ _ _ _ _ _ Hx E1) as (v & Ev).
    unfold assemble_literal_return in H. rewrite Hlen, L0, L1 in H. cbn [blen] in H. rewrite Nat.add_1_r in H. cbn [Nat.eqb] in H.
    destruct (length (g_bytes g) =? blen (o_bc x)) eqn:El; [|cbn [Base.bind] in H; injection H as <-; exact Logic.I]. apply Nat.eqb_eq in El.
    destruct (single _ _ _ _ _ _ Hr El) as [S1 S2]. rewrite Ev in S1.
    cbn [emit1 g_lits] in H. destruct (Hc v S1) as [Hg | (l & Hg & Hlv)].
    - change (g_lits (emit1 B_return_local 0 g)) with (g_lits g) in H. rewrite Hg in H.
      change (g_bytes (emit1 B_return_local 0 g)) with (g_bytes g ++ [num B_return_local]) in H. rewrite S2 in H.
      rewrite Ev, Hg in Hx. rewrite S1. 
      destruct (const_nolits _ _ _ _ _ Hx) as [[-> Hs0] | [[-> Hs0] | [-> Hs0]]];
        rewrite Hs0 in H; cbn in H; injection H as <-; eexists; (split; [|split; reflexivity]); reflexivity.
    - change (g_lits (emit1 B_return_local 0 g)) with (g_lits g) in H. rewrite Hg in H. cbn [Base.bind] in H. injection H as <-.
      exists v. auto. }
  destruct (is (lastb 0 g) B_push_global) eqn:E2.
  { apply is_eq in E2. destruct (last_split _ _ _ _ _ _ Hr) as (x & tl1 & -> & Ex); [congruence|].
    pose proof (r_tl _ _ _ _ _ _ Hr) as Ht. inversion Ht as [|? ? Hx _]; subst. rewrite <- Ex in *.
    destruct (glob_op _ _ _ _ _ _ Hx E2) as (i & t & Et & Hn & Hp).
    unfold assemble_global_return in H. rewrite Hlen, L0, L1 in H. cbn [blen] in H. rewrite Nat.add_1_r in H. cbn [Nat.eqb] in H.
    destruct (length (g_bytes g) =? blen (o_bc x)) eqn:El; [|cbn [Base.bind] in H; injection H as <-; exact Logic.I]. apply Nat.eqb_eq in El.
    destruct (single _ _ _ _ _ _ Hr El) as [S1 S2]. rewrite Et in S1.
    change (g_lits (emit1 B_return_local 0 g)) with (g_lits g) in H.
    destruct (g_lits g) as [|l [|]]; try discriminate; [|destruct l; discriminate]. destruct l as [|n|]; try discriminate.
    assert (n = t). { destruct i as [|[|]]; cbn in Hn; congruence. } subst n.
    unfold plain_global in Hp. apply andb_true_iff in Hp as Hp'. destruct Hp' as [Hp' P3]. apply andb_true_iff in Hp'. destruct Hp' as [P1 P2].
    apply negb_true_iff in P1, P2, P3. rewrite P1, P2, P3 in H. cbn [Base.bind] in H. injection H as <-. split; auto. }
  destruct (is_one_of (lastb 0 g) PUSH_FIELD) eqn:E3.
  { destruct (last_split _ _ _ _ _ _ Hr) as (x & tl1 & -> & Ex); [intros E; rewrite E in E3; discriminate|].
    pose proof (r_tl _ _ _ _ _ _ Hr) as Ht. inversion Ht as [|? ? Hx _]; subst. rewrite <- Ex in *.
    pose proof (r_fld _ _ _ _ _ _ Hr Hl) as Hf. inversion Hf as [|? ? Hx2 _]; subst.
    destruct (pushfld_op _ _ _ _ _ _ _ Hx E3) as (k & i & Eo & Ha & Hb). unfold inner_op in Hx2. rewrite Eo in Hx2. destruct k as [|k]; [contradiction|].
    assert (Eb : o_bc x = B_push_field /\ o_bs x = [num B_push_field; i; S k]).
    { destruct (o_bc x); try discriminate; auto; destruct Hb as [Hb _]; discriminate. } destruct Eb as [Eb Es].
    destruct (Ha ltac:(lia)) as [_ (sc & _ & Hk)].
    unfold assemble_field_getter in H. rewrite Hlen, L0, L1 in H. cbn [blen] in H. rewrite Nat.add_1_r in H.
    destruct (S (length (g_bytes g)) =? S (blen (o_bc x))) eqn:El; [|cbn [Base.bind] in H; injection H as <-; exact Logic.I]. apply Nat.eqb_eq in El. injection El as El.
    destruct (single _ _ _ _ _ _ Hr El) as [S1 S2]. rewrite Eo in S1. rewrite Eb in H.
    change (g_bytes (emit1 B_return_local 0 g)) with (g_bytes g ++ [num B_return_local]) in H. rewrite S2, Es in H.
    cbn in H. injection H as <-. split; auto. split; auto. lia. }
  cbn [Base.bind] in H. injection H as <-. exact Logic.I.
Qed.
Lemma triv_stale g mx tr : stale (lastb 0 g) -> assemble_trivial true mx (emit1 B_return_local 0 g) = Ok tr -> tr = None.
Proof.
  intros Hs H. unfold assemble_trivial, last_is, last_one_of in H. destruct (last_emit1 B_return_local 0 g) as [L0 L1]. rewrite L0, L1, is_refl in H.
  destruct Hs as [E | [E | E]]; [rewrite E in H; cbn in H; congruence| |rewrite E in H; cbn in H; congruence].
  destruct (lastb 0 g); try discriminate; cbn in H; congruence.
Qed.
Lemma stale_field b : stale b -> is_one_of b PUSH_FIELD = false.
Proof. intros [-> | [H | ->]]; auto. destruct b; auto; discriminate. Qed.

(** * The statements of a block *)
Section Body.
Variable ret : option src.
Variable period : bool.
Fixpoint gen_block (ss : list src) (c : ctx) : res ctx :=
  match ss with
  | [] =>
      match ret with
      | Some e => c <- gen ce e c ;; finish_return c
      | None => finish_block c
      end
  | e :: ss' =>
      c <- gen ce e c ;;
      match ss', ret with
      | [], None =>
          if period then
            g <- emit_pop (fst c) ;; g <- remove_last_pop g ;;
            finish_block (g, snd c)
          else finish_block c
      | _, _ => g <- emit_pop (fst c) ;; gen_block ss' (g, snd c)
      end
  end.
End Body.
Lemma gen_blk_eq label ps ls ss ret period g scs : gen ce (SBlk label ps ls ss ret period) (g, scs) =
  (sc <- new_scope (t_block_self :: ps) ls ;; c <- gen_block ret period ss (mg_new (g_peep g), sc :: scs) ;;
   m <- assemble label c ;;
   match snd c with
   | sc :: scs => Ok (emit_push_block m (requires_context sc) g, scs)
   | [] => Err AttributeError
   end).
Proof. reflexivity. Qed.

Record blk_res (ss : list src) (ret : option src) (rho : env) (scs : list scope) (pref : list item) (scs' : list scope) (g' : mg)
  (body : list item) (fin : op) : Prop := {
  br_fin : fin_rep scs' g' ((pref ++ body) ++ [IOp fin]) 1;
  br_nr : noret (pref ++ body) = true;
  br_op : match fin with ORet => True | ORetNl k => k = depth rho | _ => False end;
  br_sem : computes (inl_part body fin) (fun S X μ n s => eval_block fields ss ret μ rho n s);
  br_le : scs_le scs scs';
  br_outs : outs_ok scs';
  br_triv : forall mx tr, assemble_trivial true mx g' = Ok tr -> triv_ok tr (tl rho) (pref ++ body) fin;
  br_blks : oblks body = created_body ss ret rho }.

Lemma finish_plain ss ret rho scs scs1 g c0 tl pref d p g2 g' scs' : st_ok scs rho -> scs_le scs scs1 -> outs_ok scs1 -> 2 <= length scs ->
  rep scs1 g c0 tl 1 -> code c0 tl = pref ++ d -> typ d 0 = Some (1, p) ->
  computes d (fun S X μ n s => eval_block fields ss ret μ rho n s) -> oblks d = created_body ss ret rho ->
  (forall v, code c0 tl = [IOp (OLit v)] -> g_lits g = [] \/ exists l, g_lits g = [l] /\ lit_value l = Some v) ->
  g2 = g \/ (g_bytes g2 = g_bytes g /\ g_lits g2 = g_lits g /\ g_loops g2 = g_loops g /\ (g_max g <= g_max g2)%Z /\ stale (lastb 0 g2)) ->
  finish_block (g2, scs1) = Ok (g', scs') ->
  scs' = scs1 /\ blk_res ss ret rho scs pref scs' g' d ORet.
Proof.
  intros Hst Hs Ho Hl Hr Hc Hd Hsem Hin Hk Hg2 H.
  assert (Hl1 : 2 <= length scs1) by (rewrite (scs_le_length _ _ Hs); auto).
  assert (Hne : g_bytes g <> []).
  { intros E. destruct (r_enc _ _ _ _ _ _ Hr) as (bs0 & P & He & Hb). pose proof (b_enc _ _ _ _ _ (rep_base _ _ _ _ _ _ Hr)) as (P' & He').
    apply (enc_nonnil _ _ _ _ _ _ _ _ _ He') in E. rewrite Hc in E. apply app_eq_nil in E. destruct E as [_ ->]. discriminate. }
  assert (Hb2 : g_bytes g2 = g_bytes g) by (destruct Hg2 as [-> | (E & _)]; auto).
  assert (Er : optimize_return_field g2 = Ok (false, g2)).
  { destruct Hg2 as [-> | (_ & _ & _ & _ & E)].
    - destruct (optimize_return_field g) as [r|] eqn:Er; [rewrite (return_block _ _ _ _ _ _ _ Hr Hl1 Er); auto|].
      unfold finish_block in H. destruct (g_bytes g); [congruence|]. unfold emit_return_local in H. rewrite Er in H. discriminate.
    - apply return_none, stale_field. auto. }
  unfold finish_block in H. rewrite Hb2 in H. destruct (g_bytes g) as [|by0 bs] eqn:Eb; [congruence|]. rewrite <- Eb in *. clear Hne.
  unfold emit_return_local in H. rewrite Er in H. cbn [Base.bind fst snd] in H. injection H as <- <-. split; auto.
  assert (F : fin_rep scs1 g2 (pref ++ d) 1).
  { rewrite <- Hc. destruct (base_fin _ _ _ _ _ (rep_base _ _ _ _ _ _ Hr)) as [(P & F1) (q & F2 & F3)].
    destruct Hg2 as [-> | (E1 & E2 & E3 & E4 & _)]; [split; eauto|].
    split; [exists P; rewrite E1, E2, E3; auto|exists q; split; auto; lia]. }
  split; auto.
  - eapply fin_emit; [exact F|apply emits_ret|apply scs_le_refl|reflexivity|auto].
  - rewrite <- Hc. apply (r_nr _ _ _ _ _ _ Hr); auto.
  - intros mx tr Ht. destruct Hg2 as [-> | (_ & _ & _ & _ & E)].
    + rewrite <- Hc. eapply triv_block; eauto.
      rewrite (scs_le_length _ _ Hs), <- (env_ok_length _ _ (s_env _ _ Hst)). pose proof (env_ok_length _ _ (s_env _ _ Hst)) as El.
      destruct rho; [simpl in El; lia|reflexivity].
    + apply triv_stale in Ht; auto. subst tr. exact Logic.I.
Qed.

Lemma block_ok ret period rho : on_some gen_ok ret -> match ret with Some e => ok_src e | None => true end = true -> forall ss, Forall gen_ok ss -> forallb ok_src ss = true ->
  forall scs g c0 tl g' scs', st_ok scs rho -> 2 <= length scs -> rep scs g c0 tl 0 ->
  (ss = [] -> ret = None -> code c0 tl = []) -> (code c0 tl = [] -> g_lits g = []) ->
  gen_block ret period ss (g, scs) = Ok (g', scs') ->
  exists body fin, blk_res ss ret rho scs (code c0 tl) scs' g' body fin.
Proof.
  intros Hret Hokr ss Hss. induction Hss as [|e ss He Hss IH]; intros Hok scs g c0 tl g' scs' Hst Hl Hr Hnil Hlits H.
  - cbn [gen_block] in H. destruct ret as [e|].
    + cbn [on_some] in Hret. destruct (gen ce e (g, scs)) as [[g1 scs1]|] eqn:E; [|discriminate]. cbn [Base.bind] in H.
      destruct (Hret Hokr _ _ _ _ _ _ _ _ Hst Hr E) as (d & c1 & tl1 & R). unfold finish_return in H.
      destruct (make_catch scs1) as [scs2|] eqn:Em; [|discriminate]. cbn [Base.bind] in H. injection H as <- <-.
      destruct (make_catch_spec _ _ Em (gs_outs _ _ _ _ _ _ _ _ _ _ _ _ _ R)) as (M1 & M2 & M3 & M4).
      pose proof (gs_st _ _ _ _ _ _ _ _ _ _ _ _ _ R Hst) as Hst1.
      pose proof (st_depth _ _ Hst1) as Ed. rewrite Ed in *.
      pose proof (env_ok_length _ _ (s_env _ _ Hst)) as El.
      exists d, (ORetNl (depth rho)). split; auto.
      * rewrite <- (gs_code _ _ _ _ _ _ _ _ _ _ _ _ _ R).
        eapply fin_emit; [apply base_fin, rep_base, R|apply emits_retnl; [unfold depth; lia|auto]|auto|reflexivity|auto].
      * rewrite <- (gs_code _ _ _ _ _ _ _ _ _ _ _ _ _ R). apply (r_nr _ _ _ _ _ _ (gs_rep _ _ _ _ _ _ _ _ _ _ _ _ _ R)). auto.
      * intros S X μ Hμ n st s. cbn [inl_part eval_block]. rewrite exec_app, (gs_sem _ _ _ _ _ _ _ _ _ _ _ _ _ R) by auto. rewrite !bind_assoc. apply bind_ext. intros v s1.
        cbn [bind]. rewrite exec_op1. cbn [exec_op pop]. unfold return_from. destruct (depth rho) eqn:Edr; [unfold depth in Edr; lia|].
        rewrite !bind_assoc. apply bind_ext. reflexivity.
      * eapply scs_le_trans; [apply R|auto].
      * intros mx tr Ht. unfold assemble_trivial, last_is, last_one_of in Ht. cbn in Ht. injection Ht as <-. exact Logic.I.
      * apply R.
    + specialize (Hnil eq_refl eq_refl). specialize (Hlits Hnil).
      assert (Eb : g_bytes g = []).
      { destruct (b_enc _ _ _ _ _ (rep_base _ _ _ _ _ _ Hr)) as (P & He'). apply (enc_nonnil _ _ _ _ _ _ _ _ _ He') in Hnil. auto. }
      destruct (emits_const fields (cx_of scs) (g_lits (emit_push_constant (LV VNil) g)) (A_of scs) g (LV VNil) VNil eq_refl) as (b6 & bo6 & He6 & _); [apply keeps_refl|].
      assert (Hr1 : rep scs (emit_push_constant (LV VNil) g) c0 ((OLit VNil, b6, bo6) :: tl) 1).
      { eapply rep_emit; [exact Hr|exact He6|apply scs_le_refl|reflexivity|reflexivity|intros; exact Logic.I]. }
      assert (Hfb : finish_block (emit_push_constant (LV VNil) g, scs) = Ok (g', scs')).
      { unfold finish_block in H |- *. rewrite Eb in H. change (g_bytes (emit_push_constant (LV VNil) g)) with (g_bytes g ++ [num B_push_nil]). rewrite Eb. exact H. }
      destruct (finish_plain [] None rho scs scs (emit_push_constant (LV VNil) g) c0 ((OLit VNil, b6, bo6) :: tl) (code c0 tl) [IOp (OLit VNil)] 1 (emit_push_constant (LV VNil) g) g' scs'
        Hst (scs_le_refl _) (s_outs _ _ Hst) Hl Hr1 (code_cons _ _ _) eq_refl) as [_ R]; auto.
      { intros S X μ Hμ n st s. reflexivity. }
      eauto.
  - cbn [forallb] in Hok. apply andb_true_iff in Hok. destruct Hok as [Hoe Hok]. cbn [gen_block] in H.
    destruct (gen ce e (g, scs)) as [[g1 scs1]|] eqn:E; [|discriminate]. cbn [Base.bind fst snd] in H.
    destruct (He Hoe _ _ _ _ _ _ _ _ Hst Hr E) as (d & c1 & tl1 & R).
    pose proof (gs_st _ _ _ _ _ _ _ _ _ _ _ _ _ R Hst) as Hst1.
    destruct (gs_typ _ _ _ _ _ _ _ _ _ _ _ _ _ R) as (p & Hp).
    assert (Hlast : ss = [] -> ret = None -> exists body fin, blk_res (e :: ss) ret rho scs (code c0 tl) scs' g' body fin).
    { intros -> ->.
      assert (Hk : forall v, code c1 tl1 = [IOp (OLit v)] -> g_lits g1 = [] \/ exists l, g_lits g1 = [l] /\ lit_value l = Some v).
      { intros v Ev. rewrite (gs_code _ _ _ _ _ _ _ _ _ _ _ _ _ R) in Ev.
        assert (Hdn : d <> []) by (eapply typ_nonnil; eauto).
        destruct (code c0 tl) as [|i l] eqn:Ec; [|destruct l; [destruct d; [congruence|discriminate]|discriminate]].
        apply (gs_const _ _ _ _ _ _ _ _ _ _ _ _ _ R); auto. }
      destruct period.
      - destruct (emit_pop g1) as [g2|] eqn:Ep; [|discriminate]. cbn [Base.bind] in H.
        destruct (remove_last_pop g2) as [g3|] eqn:Eu; [|discriminate]. cbn [Base.bind] in H.
        pose proof (pop_unpop _ _ _ _ _ _ _ _ (gs_rep _ _ _ _ _ _ _ _ _ _ _ _ _ R) (gs_end _ _ _ _ _ _ _ _ _ _ _ _ _ R) Ep Eu) as Hpu.
        destruct (finish_plain [e] None rho scs scs1 g1 c1 tl1 (code c0 tl) d p g3 g' scs' Hst (gs_le _ _ _ _ _ _ _ _ _ _ _ _ _ R) (gs_outs _ _ _ _ _ _ _ _ _ _ _ _ _ R) Hl
          (gs_rep _ _ _ _ _ _ _ _ _ _ _ _ _ R) (gs_code _ _ _ _ _ _ _ _ _ _ _ _ _ R) Hp) as [_ Rb]; auto.
        + intros S X μ Hμ n st s. cbn [eval_block]. apply (gs_sem _ _ _ _ _ _ _ _ _ _ _ _ _ R); auto.
        + unfold created_body. cbn [flat_map]. rewrite !app_nil_r. apply R.
        + eauto.
      - destruct (finish_plain [e] None rho scs scs1 g1 c1 tl1 (code c0 tl) d p g1 g' scs' Hst (gs_le _ _ _ _ _ _ _ _ _ _ _ _ _ R) (gs_outs _ _ _ _ _ _ _ _ _ _ _ _ _ R) Hl
          (gs_rep _ _ _ _ _ _ _ _ _ _ _ _ _ R) (gs_code _ _ _ _ _ _ _ _ _ _ _ _ _ R) Hp) as [_ Rb]; auto.
        + intros S X μ Hμ n st s. cbn [eval_block]. apply (gs_sem _ _ _ _ _ _ _ _ _ _ _ _ _ R); auto.
        + unfold created_body. cbn [flat_map]. rewrite !app_nil_r. apply R.
        + eauto. }
    assert (Hmore : (ss <> [] \/ ret <> None) -> exists body fin, blk_res (e :: ss) ret rho scs (code c0 tl) scs' g' body fin).
    { intros Hm.
      assert (H' : (g2 <- emit_pop g1 ;; gen_block ret period ss (g2, scs1)) = Ok (g', scs')).
      { destruct ss; [destruct ret; [exact H|destruct Hm; congruence]|exact H]. }
      destruct (emit_pop g1) as [g2|] eqn:Ep; [|discriminate]. cbn [Base.bind] in H'.
      destruct (emit_pop_ok _ _ _ _ _ _ _ _ _ _ (gs_rep _ _ _ _ _ _ _ _ _ _ _ _ _ R) (gs_code _ _ _ _ _ _ _ _ _ _ _ _ _ R) Hp Ep) as (d' & c2 & tl2 & P1 & P2 & P3 & P4 & P5 & P6).
      assert (Hne : code c2 tl2 <> []). { rewrite P1. intros E0. apply app_eq_nil in E0. destruct E0. auto. }
      destruct (IH Hok scs1 g2 c2 tl2 g' scs' Hst1) as (body & fin & B); auto.
      - rewrite (scs_le_length _ _ (gs_le _ _ _ _ _ _ _ _ _ _ _ _ _ R)). auto.
      - intros -> ->. destruct Hm; congruence.
      - intros Ec. contradiction.
      - rewrite P1 in B. destruct B as [B1 B2 B3 B4 B5 B6 B7 B8]. exists (d' ++ body), fin. rewrite <- app_assoc in *. split; rewrite ?app_assoc in *; auto.
        + intros S X μ Hμ n st s.
          assert (Ei : inl_part (d' ++ body) fin = d' ++ inl_part body fin) by (unfold inl_part; destruct fin; rewrite ?app_assoc; auto).
          rewrite Ei, exec_app, P4, exec_app, (gs_sem _ _ _ _ _ _ _ _ _ _ _ _ _ R) by auto.
          assert (Ee : eval_block fields (e :: ss) ret μ rho n s = bind (eval fields e μ rho n s) (fun _ s => eval_block fields ss ret μ rho n s)).
          { cbn [eval_block]. destruct ss; [destruct ret; [auto|destruct Hm; congruence]|auto]. }
          rewrite Ee, !bind_assoc. apply bind_ext. intros v s1. cbn [bind]. rewrite exec_op1. cbn [exec_op pop bind]. apply B4. auto.
        + eapply scs_le_trans; [apply R|auto].
        + rewrite oblks_app. unfold created_body. cbn [flat_map]. rewrite <- app_assoc. f_equal; [|exact B8]. rewrite P6. apply R. }
    destruct ss; [destruct ret; [apply Hmore; right; discriminate|apply Hlast; auto]|apply Hmore; left; discriminate].
Qed.

Lemma gen_blk label ps ls ss ret period : Forall gen_ok ss -> on_some gen_ok ret -> gen_ok (SBlk label ps ls ss ret period).
Proof.
  intros Hss Hret Hok rho scs g c0 tl h g' scs' Hst Hr H. rewrite gen_blk_eq in H.
  destruct (new_scope (t_block_self :: ps) ls) as [sc|] eqn:En; [|discriminate]. cbn [Base.bind] in H.
  destruct (gen_block ret period ss (mg_new (g_peep g), sc :: scs)) as [[g1 scs1]|] eqn:Eg; [|discriminate]. cbn [Base.bind] in H.
  pose proof Hok as Hok0. cbn [ok_src] in Hok. apply andb_true_iff in Hok. destruct Hok as [Hok Hor]. apply andb_true_iff in Hok. destruct Hok as [Hok Hos].
  assert (Esc : sc_args sc = t_block_self :: ps /\ sc_locals sc = plain_locals ls /\ sc_out sc = []).
  { unfold new_scope in En. destruct (no_dup (t_block_self :: ps) && no_dup (map fst ls)); [|discriminate]. injection En as <-. auto. } destruct Esc as (Ea & Elo & Eo).
  assert (Hst0 : st_ok (sc :: scs) (add_level ps ls rho)).
  { split.
    - discriminate.
    - constructor; [|apply Hst]. split; [simpl; auto|]. exists ls, []. rewrite app_nil_r. split; [reflexivity|]. split; auto.
    - split; [|apply Hst]. rewrite Eo. intros _ i [].
    - split; [|apply Hst]. intros _. eauto. }
  assert (Hl : 2 <= length (sc :: scs)). { pose proof (s_ne _ _ Hst). destruct scs; [congruence|simpl; lia]. }
  assert (Hr0 : rep (sc :: scs) (mg_new (g_peep g)) [] [] 0).
  { split; try reflexivity; try constructor.
    - exists [], []. split; [constructor|reflexivity].
    - exists 0. split; reflexivity.
    - reflexivity.
    - reflexivity. }
  destruct (block_ok ret period (add_level ps ls rho) Hret Hor ss Hss Hos _ _ _ _ _ _ Hst0 Hl Hr0 (fun _ _ => eq_refl) (fun _ => eq_refl) Eg) as (body & fin & [B1 B2 B3 B4 B5 B6 B7 B8]).
  destruct (assemble label (g1, scs1)) as [m|] eqn:Em; [|discriminate]. cbn [Base.bind snd] in H.
  inversion B5 as [|? sc' ? scs2 Hsc Hscs]; subst. injection H as <- <-.
  cbn [assemble] in Em. destruct (assemble_trivial (match scs2 with [] => false | _ => true end) (max_ctx (sc' :: scs2)) g1) as [tr|] eqn:Et; [|discriminate].
  cbn [Base.bind] in Em.
  assert (Hne : scs2 <> []). { intros ->. inversion Hscs; subst. destruct (s_ne _ _ Hst); auto. }
  replace (match scs2 with [] => false | _ => true end) with true in Et by (destruct scs2; congruence).
  assert (Em' : m = Meth label (g_bytes g1) (g_lits g1) (sc_locals sc') (length (sc_args sc')) (g_loops g1) (g_max g1 + 2 + 2) tr).
  { destruct tr; [congruence|]. destruct (forallb (fun b => b <=? 255) (g_bytes g1)); [congruence|discriminate]. } clear Em.
  destruct Hsc as (S1 & (qs & S2 & S3) & _). rewrite Ea in S1. rewrite Elo in S2.
  pose proof (env_ok_length _ _ (s_env _ _ Hst)) as Elen.
  assert (Hd : depth (add_level ps ls rho) = length rho) by (unfold depth, add_level; simpl; lia).
  assert (Himpl : impl (cx_of scs2) (if requires_context sc' then A_of scs2 else none) rho (SBlk label ps ls ss ret period) m).
  { rewrite Em', S1. cbn [length]. destruct B1 as [(P & F1) (q & F2 & F3)]. 
    eapply Impl with (out := fun a => exists v, a = AVar v /\ In v (sc_out sc')) (body := body) (fin := fin) (P := P) (p := q); auto.
    - eauto.
    - intros a (v & -> & Hv). exists v. split; auto. destruct v as [d|i]; auto. destruct B6 as [B6 _]. rewrite S1 in B6. apply B6; auto.
    - eapply enc_mono; [exact F1| | |].
      + cbn [cx_of map]. rewrite S1. split; auto.
      + apply lits_le_refl.
      + intros k a [H1 (sc1 & H2 & H3)]. destruct k as [|k].
        * cbn [nest]. cbn [nth_error] in H2. injection H2 as <-. destruct a as [v| |]; [eauto| |].
          -- destruct scs2; [congruence|simpl in H3; lia].
          -- destruct H3 as [H3 _]. destruct scs2; [congruence|simpl in H3; lia].
        * cbn [nest]. rewrite (H1 0 sc' ltac:(lia) eq_refl). split.
          -- intros j s Hj Es. apply (H1 (S j) s); auto. lia.
          -- exists sc1. split; auto. cbn [length] in H3. destruct a; auto. destruct H3; auto.
    - destruct fin; auto. rewrite <- Hd. auto.
    - apply (B7 (max_ctx (sc' :: scs2))). auto.
    - lia. }
  set (g' := emit_push_block m (requires_context sc') g).
  destruct (emits_block fields (cx_of scs2) (g_lits g') (A_of scs2) g m (requires_context sc') (SBlk label ps ls ss ret period) rho) as (bo & He); auto.
  { apply keeps_refl. }
  { apply env_ok_args. eapply env_ok_le; eauto. apply Hst. }
  fold g' in He. set (b := if requires_context sc' then B_push_block else B_push_block_no_ctx) in *.
  assert (Hr' : rep scs2 g' c0 ((OBlk (SBlk label ps ls ss ret period) rho, b, bo) :: tl) (S h)).
  { eapply rep_emit; [exact Hr|exact He|exact Hscs|reflexivity|reflexivity|intros; exact Logic.I]. }
  pose proof (lastb_cons _ _ _ _ _ _ _ Hr') as L0. cbn [o_bc fst snd] in L0.
  exists [IOp (OBlk (SBlk label ps ls ss ret period) rho)], c0, ((OBlk (SBlk label ps ls ss ret period) rho, b, bo) :: tl). split; auto.
  - apply code_cons.
  - apply B6.
  - apply He.
  - intros S X μ Hμ n st s. rewrite exec_op1. reflexivity.
  - exists 1. reflexivity.
  - cbn [is_block]. split; auto. exists b, bo. split; auto. unfold b. destruct (requires_context sc'); reflexivity.
  - unfold end_ok. rewrite L0. unfold b. destruct (requires_context sc'); split; discriminate.
  - intros v _ E. discriminate.
Qed.

Theorem gen_all e : gen_ok e.
Proof.
  induction e as [n|l|sup r sel args IHr IHa|e IH|e IH|vs e IH|label ps ls ss ret per IHs IHr] using src_ind'.
  - apply gen_var.
  - apply gen_literal.
  - apply gen_send; auto.
  - apply gen_inc; auto.
  - apply gen_dec; auto.
  - apply gen_asgn; auto.
  - apply gen_blk; auto.
Qed.
End Blk.
