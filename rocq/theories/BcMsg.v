(** Messages and inlined control structures compute what the source says. *)
From Coq Require Import ZArith Bool String Ascii List Lia.
From Verif Require Import Base LexModel ParseModel BcModel BcInterp BcSpec BcCode BcSim BcEval BcMono BcAdapt BcScope BcEmit BcInl BcRep BcGen BcExpr.
Import ListNotations.
Open Scope nat_scope.
Open Scope list_scope.

Section Msg.
Variable ce : cenv.
Notation fields := (ce_fields ce).
Notation enc_op := (enc_op fields).
Notation enc := (enc fields).
Notation emits := (emits fields).
Notation grows := (grows fields).
Notation rep := (rep fields).
Notation base := (base fields).
Notation impl := (impl fields).
Notation gen_res := (gen_res ce).
Notation gen_ok := (gen_ok ce).

(** * Inlined control structures *)
Lemma emit3_bytes b x y e g : g_bytes (emit3 b x y e g) = g_bytes g ++ [num b; x; y].
Proof. unfold emit3. simpl. rewrite <- !app_assoc. reflexivity. Qed.
Definition cut (tl : list oper) (bs : list nat) (g : mg) : mg := with_last (firstn 4 (map o_bc tl ++ no_last)) (with_bytes bs g).
Lemma cut_block scs g c0 a rho b bo tl h : rep scs g c0 ((OBlk a rho, b, bo) :: tl) h -> is_one_of b PUSH_BLOCK = true ->
  exists x m A0 h1 bs, bo = [num b; x] /\ h = S h1 /\ blen b = 2 /\ nth_error (g_lits g) x = Some (LM m) /\
    impl (cx_of scs) A0 rho a m /\ allow_le A0 (A_of scs) /\ g_bytes g = bs ++ bo /\ rep scs (cut tl bs g) c0 tl h1.
Proof.
  intros Hr Hb. destruct (rep_cut _ _ _ _ _ _ _ Hr) as (h1 & bs & H1 & H2 & H3).
  pose proof (r_tl _ _ _ _ _ _ Hr) as Ht. inversion Ht as [|? ? He _]; subst. cbn [o_op o_bc o_bs fst snd] in *.
  cbn [op_ht] in H1. injection H1 as <-.
  assert (Hc : rep scs (cut tl bs g) c0 tl h1).
  { apply H3; auto; unfold cut; simpl; try lia. pose proof (r_cur _ _ _ _ _ _ Hr). lia. }
  inversion He; subst.
  - exists i, m, (A_of scs), h1, bs. split; [reflexivity|]. split; [reflexivity|]. split; [reflexivity|]. split; [assumption|]. split; [assumption|].
    split; [intros ? ? ?; auto|]. split; auto.
  - exists i, m, none, h1, bs. split; [reflexivity|]. split; [reflexivity|]. split; [reflexivity|]. split; [assumption|]. split; [assumption|].
    split; [intros ? ? []|]. split; auto.
Qed.
Lemma grows_src C F A g g1 g' c bb : grows C F A g g' c bb -> g_bytes g1 = g_bytes g -> g_lits g1 = g_lits g -> g_inl g1 = g_inl g ->
  g_loops g1 = g_loops g -> g_cur g1 = g_cur g -> g_max g1 = g_max g -> grows C F A g1 g' c bb.
Proof. intros [H1 H2 H3 H4 H5 H6] E1 E2 E3 E4 E5 E6. split; rewrite ?E1, ?E2, ?E3, ?E4, ?E5, ?E6; auto. Qed.
Lemma grows_dst C F A g g1 g' c bb : grows C F A g g' c bb -> g_bytes g1 = g_bytes g' -> g_lits g1 = g_lits g' -> g_inl g1 = g_inl g' ->
  g_loops g1 = g_loops g' -> g_cur g1 = g_cur g' -> g_max g1 = g_max g' -> grows C F A g g1 c bb.
Proof. intros [H1 H2 H3 H4 H5 H6] E1 E2 E3 E4 E5 E6. split; rewrite ?E1, ?E2, ?E3, ?E4, ?E5, ?E6; auto. Qed.
Lemma push_const_inl l b g : emit_push_constant l (with_inl b g) = with_inl b (emit_push_constant l g).
Proof.
  assert (K : (let '(i, g) := add_literal_if_absent l (with_inl b g) in
      match i with 0 => emit1 B_push_constant_0 1 g | 1 => emit1 B_push_constant_1 1 g | 2 => emit1 B_push_constant_2 1 g
      | _ => emit2 B_push_constant i 1 g end) =
     with_inl b (let '(i, g) := add_literal_if_absent l g in
      match i with 0 => emit1 B_push_constant_0 1 g | 1 => emit1 B_push_constant_1 1 g | 2 => emit1 B_push_constant_2 1 g
      | _ => emit2 B_push_constant i 1 g end)).
  { unfold add_literal_if_absent. cbn [with_inl g_lits]. destruct (find_lit l (g_lits g)) as [[|[|[|i]]]|]; try reflexivity.
    destruct (length (g_lits g)) as [|[|[|i]]]; reflexivity. }
  unfold emit_push_constant. destruct l as [v|t|m]; try exact K. destruct v as [| | |z|z|f|s|s|n]; try exact K; try reflexivity.
  destruct z as [|[p|p|]|p]; try exact K; reflexivity.
Qed.

Record inl_res (rho : env) (scs : list scope) (g : mg) (c : list item) (h : nat) (scs' : list scope) (g' : mg) (d : list item) : Prop := {
  ir_base : base scs' g' (c ++ d) h;
  ir_last : g_last g' = no_last;
  ir_le : scs_le scs scs';
  ir_outs : outs_ok scs';
  ir_lits : exists x, g_lits g' = g_lits g ++ x }.

Lemma typ_shift1 c p h : typ c 0 = Some (1, p) -> typ c h = Some (S h, h + p).
Proof. intros H. pose proof (typ_shift h _ _ _ _ H) as T. rewrite Nat.add_0_r, Nat.add_1_r in T. exact T. Qed.
Lemma typ_then k c p h : typ c 0 = Some (1, p) -> exists q, typ [IThen k c] (S h) = Some (S h, q).
Proof.
  intros H. cbn [typ]. rewrite typ_item_eq. change (1 <=? S h) with true. cbv iota. replace (S h - 1) with h by lia.
  rewrite (typ_shift1 _ _ h H). cbn [heq]. rewrite Nat.eqb_refl. cbn [hseq]. eauto.
Qed.
Lemma typ_else k c1 c2 p1 p2 h : typ c1 0 = Some (1, p1) -> typ c2 0 = Some (1, p2) -> exists q, typ [IElse k c1 c2] (S h) = Some (S h, q).
Proof.
  intros H H2. cbn [typ]. rewrite typ_item_eq. change (1 <=? S h) with true. cbv iota. replace (S h - 1) with h by lia.
  rewrite (typ_shift1 _ _ h H), (typ_shift1 _ _ h H2). cbn [heq]. rewrite Nat.eqb_refl. cbn [hseq]. eauto.
Qed.
Lemma typ_loop k t c p1 p2 h : typ t 0 = Some (1, p1) -> typ c 0 = Some (1, p2) -> exists q, typ [ILoop k t (c ++ [IOp OPop])] h = Some (h, q).
Proof.
  intros H H2. cbn [typ]. rewrite typ_item_eq.
  rewrite (typ_shift1 _ _ h H). cbn [heq]. rewrite Nat.eqb_refl. rewrite typ_app, (typ_shift1 _ _ h H2). cbn [hseq].
  rewrite (typ_one OPop (S h) h). 2:{ cbn [op_ht]. change (1 <=? S h) with true. cbv iota. f_equal. lia. }
  cbn [heq]. rewrite Nat.eqb_refl. cbn [hseq]. eauto.
Qed.
Lemma impl_later scs scs' A0 rho a m : impl (cx_of scs) A0 rho a m -> allow_le A0 (A_of scs) -> scs_le scs scs' ->
  impl (cx_of scs') A0 rho a m /\ allow_le A0 (A_of scs').
Proof.
  intros H1 H2 H3. split.
  - eapply impl_mono; eauto using cx_of_le. intros ? ? ?; auto.
  - intros k x Hx. apply (A_of_le _ _ H3). auto.
Qed.

Lemma inline_it scs rho A0 a m g g' scs' : st_ok scs rho -> impl (cx_of scs) A0 rho a m -> allow_le A0 (A_of scs) -> no_params a = true ->
  g_inl g = true -> inline_method ce m (g, scs) = Ok (g', scs') ->
  exists c bb, grows (cx_of scs') (g_lits g') (A_of scs') g g' c bb /\ bb <> [] /\
    scs_le scs scs' /\ st_ok scs' rho /\ (exists p, typ c 0 = Some (1, p)) /\
    (2 <= length scs -> noret c = true) /\
    computes c (fun S X μ n s => eval_inline fields a μ rho n s) /\ oblks c = created_inl a rho.
Proof.
  intros Hst Hi Hal Hp Hg H.
  destruct (inline_meth fields ce m A0 rho a g scs g' scs' Hi Hal Hp) as (c & bb & G1 & G2 & G3 & G4 & G5 & G6 & G7 & G8); auto.
  - apply env_ok_args. apply Hst.
  - apply Hst.
  - apply Hst.
  - exists c, bb. eauto 14 using st_ok_le.
Qed.

Lemma then_ok k a rho scs g c0 tl b bo h g' scs' : st_ok scs rho -> rep scs g c0 ((OBlk a rho, b, bo) :: tl) (S (S h)) ->
  is_one_of b PUSH_BLOCK = true -> no_params a = true ->
  inline_then_branch ce k (g, scs) = Ok (Some (g', scs')) ->
  exists c, inl_res rho scs g (code c0 tl) (S h) scs' g' [IThen k c] /\ (exists p, typ c 0 = Some (1, p)) /\
    computes c (fun S X μ n s => eval_inline fields a μ rho n s) /\ oblks c = created_inl a rho.
Proof.
  intros Hst Hr Hb Hp H.
  destruct (cut_block _ _ _ _ _ _ _ _ _ Hr Hb) as (x & m & A0 & h1 & bs & -> & E1 & El & En & Hi & Hal & Eb & Hc). injection E1 as <-.
  pose proof (lastb_cons _ _ _ _ _ _ _ Hr) as L0. cbn [o_bc fst snd] in L0.
  unfold inline_then_branch in H. unfold last_one_of in H. rewrite L0, Hb in H. cbn [negb] in H.
  destruct (byte_at (g_bytes g) (length (g_bytes g) - 1)) as [x'|] eqn:Ex; [|discriminate]. cbn [Base.bind] in H.
  assert (x' = x).
  { unfold byte_at in Ex. rewrite Eb, app_length in Ex. cbn [length] in Ex.
    rewrite nth_error_app2 in Ex by lia. replace (length bs + 2 - 1 - length bs) with 1 in Ex by lia. cbn [nth_error] in Ex. congruence. }
  subst x'.
  assert (Erm : remove_last 1 g = Ok (with_bytes bs g)).
  { unfold remove_last, last_len. rewrite (r_last _ _ _ _ _ _ Hr). cbn [map o_bc fst snd app firstn list_sum fold_right]. rewrite El, Nat.add_0_r.
    rewrite Eb, app_length. cbn [length]. replace (2 <=? length bs + 2) with true by (symmetry; apply Nat.leb_le; lia).
    replace (length bs + 2 - 2) with (length bs) by lia. rewrite firstn_app, Nat.sub_diag, firstn_all. cbn [firstn]. rewrite app_nil_r. auto. }
  rewrite Erm in H. cbn [Base.bind] in H.
  unfold emit_jump_on, emit_dummy in H.
  set (gi := with_inl true (with_bytes bs g)).
  set (gA := emit3 (jump_bc k false) 0 0 0 (with_bytes bs g)) in *. set (skip := S (length (g_bytes (with_bytes bs g)))) in *.
  assert (Eg : get_meth (g_lits gA) x = Ok m). { unfold get_meth, get_lit. change (g_lits gA) with (g_lits g). rewrite En. reflexivity. }
  rewrite Eg in H. cbn [Base.bind] in H.
  destruct (inline_method ce m (with_inl true gA, scs)) as [[g2 scs2]|] eqn:E2; [|discriminate]. cbn [Base.bind] in H.
  destruct (inline_it scs rho A0 a m (with_inl true gA) _ _ Hst Hi Hal Hp eq_refl E2) as (c & bb & G1 & G2 & G3 & G4 & (p & G5) & G6 & G7 & G8).
  change (with_inl true gA) with (emit3 (jump_bc k false) 0 0 0 gi) in G1.
  destruct (patch_jump skip g2) as [g3|] eqn:E3; [|discriminate]. cbn [Base.bind] in H. injection H as <- <-.
  destruct (patch_spec (jump_bc k false) (num (jump_bc k false)) bs bb 0 0 skip g2 g3) as (j & -> & Hj); eauto.
  { rewrite (gr_bytes _ _ _ _ _ _ _ _ G1). rewrite emit3_bytes. unfold gi; cbn [with_inl with_bytes g_bytes]. rewrite <- !app_assoc. reflexivity. }
  pose proof (grows_then fields _ _ _ gi g2 k c (jump_bc k false) 0%Z bb j ltac:(lia) G1 Hj) as Gt.
  change (g_bytes gi) with bs in Gt.
  assert (Hbase : base scs gi (code c0 tl) (S h)).
  { eapply base_same; [apply rep_base; exact Hc|..]; reflexivity. }
  destruct (typ_then k c p h G5) as (q & Hq).
  exists c. split; [|eauto]. split; auto.
  - assert (Hb2 : base scs2 (with_bytes (bs ++ j ++ bb) g2) (code c0 tl ++ [IThen k c]) (S h)).
    { eapply base_grows; [exact Hbase|exact Gt|exact G3|exact Hq|].
      intros Hl. cbn [noret forallb noret_item]. rewrite andb_true_r. apply G6; auto. }
    eapply base_same; [exact Hb2|..]; reflexivity.
  - apply G4.
  - destruct (gr_lits _ _ _ _ _ _ _ _ G1) as (y & Hy). exists y. exact Hy.
Qed.

Lemma extract_ok scs g c0 a1 a2 rho b1 bo1 b2 bo2 tl h m1' m2' g1 : rep scs g c0 ((OBlk a2 rho, b2, bo2) :: (OBlk a1 rho, b1, bo1) :: tl) (S (S h)) ->
  is_one_of b1 PUSH_BLOCK = true -> is_one_of b2 PUSH_BLOCK = true -> extract_blocks g = Ok (m1', m2', g1) ->
  exists bs A1 A2, g1 = with_bytes bs g /\ impl (cx_of scs) A1 rho a1 m1' /\ allow_le A1 (A_of scs) /\
    impl (cx_of scs) A2 rho a2 m2' /\ allow_le A2 (A_of scs) /\ base scs (with_bytes bs g) (code c0 tl) h.
Proof.
  intros Hr Hb1 Hb2 H.
  destruct (cut_block _ _ _ _ _ _ _ _ _ Hr Hb2) as (x2 & m2 & A2 & h2 & bs2 & -> & E2 & El2 & En2 & Hi2 & Hal2 & Eb2 & Hc2). injection E2 as <-.
  destruct (cut_block _ _ _ _ _ _ _ _ _ Hc2 Hb1) as (x1 & m1 & A1 & h1 & bs1 & -> & E1 & El1 & En1 & Hi1 & Hal1 & Eb1 & Hc1). injection E1 as <-.
  change (g_bytes (cut ((OBlk a1 rho, b1, [num b1; x1]) :: tl) bs2 g)) with bs2 in Eb1. 
  change (g_lits (cut ((OBlk a1 rho, b1, [num b1; x1]) :: tl) bs2 g)) with (g_lits g) in En1.
  assert (Eb : g_bytes g = bs1 ++ [num b1; x1; num b2; x2]) by (rewrite Eb2, Eb1, <- app_assoc; reflexivity).
  unfold extract_blocks in H. unfold byte_at in H. rewrite Eb, app_length in H. cbn [length] in H.
  rewrite !nth_error_app2 in H by lia. replace (length bs1 + 4 - 3 - length bs1) with 1 in H by lia. replace (length bs1 + 4 - 1 - length bs1) with 3 in H by lia.
  cbn [nth_error Base.bind] in H. unfold get_meth, get_lit in H. rewrite En1, En2 in H. cbn [Base.bind] in H.
  assert (Erm : remove_last 2 g = Ok (with_bytes bs1 g)).
  { unfold remove_last, last_len. rewrite (r_last _ _ _ _ _ _ Hr). cbn [map o_bc fst snd app firstn list_sum fold_right]. rewrite El1, El2.
    rewrite Eb, app_length. cbn [length]. replace (2 + (2 + 0) <=? length bs1 + 4) with true by (symmetry; apply Nat.leb_le; lia).
    replace (length bs1 + 4 - (2 + (2 + 0))) with (length bs1) by lia. rewrite firstn_app, Nat.sub_diag, firstn_all. cbn [firstn]. rewrite app_nil_r. auto. }
  rewrite Erm in H. cbn [Base.bind] in H. injection H as <- <- <-.
  exists bs1, A1, A2. split; [reflexivity|]. split; [assumption|]. split; [assumption|]. split; [assumption|]. split; [assumption|].
  eapply base_same; [apply rep_base; exact Hc1|..]; reflexivity.
Qed.

Lemma else_ok k a1 a2 rho scs g c0 tl b1 bo1 b2 bo2 h g' scs' : st_ok scs rho ->
  rep scs g c0 ((OBlk a2 rho, b2, bo2) :: (OBlk a1 rho, b1, bo1) :: tl) (S (S (S h))) ->
  is_one_of b1 PUSH_BLOCK = true -> is_one_of b2 PUSH_BLOCK = true -> no_params a1 = true -> no_params a2 = true ->
  inline_then_else ce k (g, scs) = Ok (Some (g', scs')) ->
  exists c1 c2, inl_res rho scs g (code c0 tl) (S h) scs' g' [IElse k c1 c2] /\ (exists p, typ c1 0 = Some (1, p)) /\ (exists p, typ c2 0 = Some (1, p)) /\
    computes c1 (fun S X μ n s => eval_inline fields a1 μ rho n s) /\ computes c2 (fun S X μ n s => eval_inline fields a2 μ rho n s) /\
    oblks c1 = created_inl a1 rho /\ oblks c2 = created_inl a2 rho.
Proof.
  intros Hst Hr Hb1 Hb2 Hp1 Hp2 H.
  pose proof (lastb_nth _ _ _ _ _ _ 0 Hr ltac:(lia)) as L0. pose proof (lastb_nth _ _ _ _ _ _ 1 Hr ltac:(lia)) as L1.
  cbn [map app nth o_bc fst snd] in L0, L1.
  unfold inline_then_else in H. unfold two_blocks, last_one_of in H. rewrite L0, L1, Hb1, Hb2 in H. cbn [negb andb] in H.
  destruct (extract_blocks g) as [[[m1 m2] g1]|] eqn:Ee; [|discriminate]. cbn [Base.bind] in H.
  destruct (extract_ok _ _ _ _ _ _ _ _ _ _ _ _ _ _ _ Hr Hb1 Hb2 Ee) as (bs & A1 & A2 & -> & Hi1 & Hal1 & Hi2 & Hal2 & Hbase0).
  unfold emit_jump_on, emit_dummy in H.
  set (gi := with_inl true (with_bytes bs g)).
  assert (Hbase : base scs gi (code c0 tl) (S h)) by (eapply base_same; [exact Hbase0|..]; reflexivity).
  set (gA := emit3 (jump_bc k true) 0 0 (-1) (with_bytes bs g)) in *. set (skip := S (length (g_bytes (with_bytes bs g)))) in *.
  destruct (inline_method ce m1 (with_inl true gA, scs)) as [[g2 scs2]|] eqn:E2; [|discriminate]. cbn [Base.bind] in H.
  destruct (inline_it scs rho A1 a1 m1 (with_inl true gA) _ _ Hst Hi1 Hal1 Hp1 eq_refl E2) as (c1 & bb1 & G1 & G2 & G3 & G4 & (p1 & G5) & G6 & G7 & G8).
  change (with_inl true gA) with (emit3 (jump_bc k true) 0 0 (-1) gi) in G1.
  destruct (patch_jump skip (emit3 B_jump 0 0 0 g2)) as [gC|] eqn:E3; [|discriminate]. cbn [Base.bind] in H.
  assert (Eb2 : g_bytes g2 = bs ++ [num (jump_bc k true); 0; 0] ++ bb1).
  { rewrite (gr_bytes _ _ _ _ _ _ _ _ G1). rewrite emit3_bytes. unfold gi; cbn [with_inl with_bytes g_bytes]. rewrite <- !app_assoc. reflexivity. }
  destruct (patch_spec (jump_bc k true) (num (jump_bc k true)) bs (bb1 ++ [num B_jump; 0; 0]) 0 0 skip (emit3 B_jump 0 0 0 g2) gC) as (j1 & -> & Hj1); eauto.
  { rewrite emit3_bytes, Eb2, <- !app_assoc. reflexivity. }
  set (gC := with_bytes (bs ++ j1 ++ bb1 ++ [num B_jump; 0; 0]) (emit3 B_jump 0 0 0 g2)) in *.
  destruct (inline_method ce m2 (reset_last gC, scs2)) as [[g4 scs4]|] eqn:E4; [|discriminate]. cbn [Base.bind] in H.
  destruct (impl_later _ _ _ _ _ _ Hi2 Hal2 G3) as [Hi2' Hal2'].
  assert (Hinl : g_inl (reset_last gC) = true) by (change (g_inl (reset_last gC)) with (g_inl g2); rewrite (gr_inl _ _ _ _ _ _ _ _ G1); reflexivity).
  destruct (inline_it scs2 rho A2 a2 m2 _ _ _ G4 Hi2' Hal2' Hp2 Hinl E4) as (c2 & bb2 & K1 & K2 & K3 & K4 & (p2 & K5) & K6 & K7 & K8).
  assert (K1' : grows (cx_of scs4) (g_lits g4) (A_of scs4) gC g4 c2 bb2) by (eapply grows_src; [exact K1|..]; reflexivity).
  destruct (patch_jump (S (length (g_bytes g2))) (with_inl false g4)) as [g5|] eqn:E5; [|discriminate]. cbn [Base.bind] in H. injection H as <- <-.
  assert (Ej1 : length j1 = 3) by (eapply enc_jump_3; eauto).
  destruct (patch_spec B_jump (num B_jump) (bs ++ j1 ++ bb1) bb2 0 0 (S (length (g_bytes g2))) (with_inl false g4) g5) as (j2 & -> & Hj2); auto.
  { rewrite Eb2, !app_length, Ej1. reflexivity. }
  { cbn [with_inl g_bytes]. rewrite (gr_bytes _ _ _ _ _ _ _ _ K1'). unfold gC. cbn [with_bytes g_bytes]. rewrite <- !app_assoc. reflexivity. }
  assert (G1' : grows (cx_of scs4) (g_lits g4) (A_of scs4) (emit3 (jump_bc k true) 0 0 (-1) gi) g2 c1 bb1).
  { eapply grows_le; eauto. destruct (gr_lits _ _ _ _ _ _ _ _ K1') as (y & Hy). exists y. exact Hy. }
  assert (Hj1' : enc_jump (jump_bc k true) (3 + length bb1 + 3) j1).
  { rewrite app_length in Hj1. cbn [length] in Hj1. rewrite Nat.add_assoc in Hj1. exact Hj1. }
  pose proof (grows_else fields _ _ _ gi g2 gC g4 k c1 c2 (jump_bc k true) (-1)%Z B_jump 0%Z bb1 bb2 j1 j2 ltac:(lia) ltac:(lia) G1' Hj1' eq_refl K1' Hj2 K2) as Gt.
  change (g_bytes gi) with bs in Gt.
  destruct (typ_else k c1 c2 p1 p2 h G5 K5) as (q & Hq).
  exists c1, c2. split; [|eauto 12]. split; auto.
  - assert (Hb' : base scs4 (with_bytes (bs ++ j1 ++ bb1 ++ j2 ++ bb2) g4) (code c0 tl ++ [IElse k c1 c2]) (S h)).
    { eapply base_grows; [exact Hbase|exact Gt|eapply scs_le_trans; eauto|exact Hq|].
      intros Hl. cbn [noret forallb noret_item]. rewrite andb_true_r. apply andb_true_iff. split; [apply G6; auto|]. apply K6. rewrite (scs_le_length _ _ G3). auto. }
    eapply base_same; [exact Hb'|..]; try reflexivity.
    cbn [reset_last with_last with_bytes with_inl g_bytes]. rewrite <- !app_assoc. reflexivity.
  - eapply scs_le_trans; eauto.
  - apply K4.
  - destruct (gr_lits _ _ _ _ _ _ _ _ Gt) as (y & Hy). exists y. exact Hy.
Qed.

Lemma andor_ok is_or a rho scs g c0 tl b bo h g' scs' : st_ok scs rho -> rep scs g c0 ((OBlk a rho, b, bo) :: tl) (S (S h)) ->
  is_one_of b PUSH_BLOCK = true -> no_params a = true ->
  inline_andor ce is_or (g, scs) = Ok (Some (g', scs')) ->
  exists c, inl_res rho scs g (code c0 tl) (S h) scs' g' [IElse (if is_or then OnTrue else OnFalse) c [IOp (OLit (som_bool is_or))]] /\
    (exists p, typ c 0 = Some (1, p)) /\ computes c (fun S X μ n s => eval_inline fields a μ rho n s) /\ oblks c = created_inl a rho.
Proof.
  intros Hst Hr Hb Hp H. set (k := if is_or then OnTrue else OnFalse) in *.
  destruct (cut_block _ _ _ _ _ _ _ _ _ Hr Hb) as (x & m & A0 & h1 & bs & -> & E1 & El & En & Hi & Hal & Eb & Hc). injection E1 as <-.
  pose proof (lastb_cons _ _ _ _ _ _ _ Hr) as L0. cbn [o_bc fst snd] in L0.
  unfold inline_andor in H. unfold last_one_of in H. rewrite L0, Hb in H. cbn [negb] in H.
  destruct (byte_at (g_bytes g) (length (g_bytes g) - 1)) as [x'|] eqn:Ex; [|discriminate]. cbn [Base.bind] in H.
  assert (x' = x).
  { unfold byte_at in Ex. rewrite Eb, app_length in Ex. cbn [length] in Ex.
    rewrite nth_error_app2 in Ex by lia. replace (length bs + 2 - 1 - length bs) with 1 in Ex by lia. cbn [nth_error] in Ex. congruence. }
  subst x'.
  assert (Erm : remove_last 1 g = Ok (with_bytes bs g)).
  { unfold remove_last, last_len. rewrite (r_last _ _ _ _ _ _ Hr). cbn [map o_bc fst snd app firstn list_sum fold_right]. rewrite El, Nat.add_0_r.
    rewrite Eb, app_length. cbn [length]. replace (2 <=? length bs + 2) with true by (symmetry; apply Nat.leb_le; lia).
    replace (length bs + 2 - 2) with (length bs) by lia. rewrite firstn_app, Nat.sub_diag, firstn_all. cbn [firstn]. rewrite app_nil_r. auto. }
  rewrite Erm in H. cbn [Base.bind] in H.
  unfold emit_jump_on, emit_dummy in H. fold k in H.
  set (gi := with_inl true (with_bytes bs g)).
  set (gA := emit3 (jump_bc k true) 0 0 (-1) (with_bytes bs g)) in *. set (skip := S (length (g_bytes (with_bytes bs g)))) in *.
  assert (Eg : get_meth (g_lits gA) x = Ok m). { unfold get_meth, get_lit. change (g_lits gA) with (g_lits g). rewrite En. reflexivity. }
  rewrite Eg in H. cbn [Base.bind] in H.
  destruct (inline_method ce m (with_inl true gA, scs)) as [[g2 scs2]|] eqn:E2; [|discriminate]. cbn [Base.bind] in H.
  destruct (inline_it scs rho A0 a m (with_inl true gA) _ _ Hst Hi Hal Hp eq_refl E2) as (c & bb & G1 & G2 & G3 & G4 & (p & G5) & G6 & G7 & G8).
  change (with_inl true gA) with (emit3 (jump_bc k true) 0 0 (-1) gi) in G1.
  assert (Eb2 : g_bytes g2 = bs ++ [num (jump_bc k true); 0; 0] ++ bb).
  { rewrite (gr_bytes _ _ _ _ _ _ _ _ G1). rewrite emit3_bytes. unfold gi; cbn [with_inl with_bytes g_bytes]. rewrite <- !app_assoc. reflexivity. }
  destruct (patch_jump skip (emit3 B_jump 0 0 0 (with_inl false g2))) as [gC|] eqn:E3; [|discriminate]. cbn [Base.bind] in H.
  destruct (patch_spec (jump_bc k true) (num (jump_bc k true)) bs (bb ++ [num B_jump; 0; 0]) 0 0 skip (emit3 B_jump 0 0 0 (with_inl false g2)) gC) as (j1 & -> & Hj1); eauto.
  { rewrite emit3_bytes. cbn [with_inl g_bytes]. rewrite Eb2, <- !app_assoc. reflexivity. }
  set (gC := with_bytes (bs ++ j1 ++ bb ++ [num B_jump; 0; 0]) (emit3 B_jump 0 0 0 g2)).
  change (with_bytes (bs ++ j1 ++ bb ++ [num B_jump; 0; 0]) (emit3 B_jump 0 0 0 (with_inl false g2))) with (with_inl false gC) in H.
  rewrite push_const_inl in H. set (g4 := emit_push_constant (LV (som_bool is_or)) gC) in *.
  destruct (emits_const fields (cx_of scs2) (g_lits g4) (A_of scs2) gC (LV (som_bool is_or)) (som_bool is_or) eq_refl) as (b2 & bo2 & He & _); [apply keeps_refl|]. fold g4 in He.
  pose proof (emits_grows _ _ _ _ _ _ _ _ _ He) as K1.
  assert (K2 : bo2 <> []) by (eapply enc_op_nonnil; apply He).
  match type of H with context [patch_jump ?i (with_inl false g4)] => change i with (S (length (g_bytes g2))) in H end.
  destruct (patch_jump (S (length (g_bytes g2))) (with_inl false g4)) as [g5|] eqn:E5; [|discriminate]. cbn [Base.bind] in H. injection H as <- <-.
  assert (Ej1 : length j1 = 3) by (eapply enc_jump_3; eauto).
  destruct (patch_spec B_jump (num B_jump) (bs ++ j1 ++ bb) bo2 0 0 (S (length (g_bytes g2))) (with_inl false g4) g5) as (j2 & -> & Hj2); auto.
  { rewrite Eb2, !app_length, Ej1. reflexivity. }
  { cbn [with_inl g_bytes]. rewrite (gr_bytes _ _ _ _ _ _ _ _ K1). unfold gC. cbn [with_bytes g_bytes]. rewrite <- !app_assoc. reflexivity. }
  assert (G1' : grows (cx_of scs2) (g_lits g4) (A_of scs2) (emit3 (jump_bc k true) 0 0 (-1) gi) g2 c bb).
  { eapply grows_le; eauto using scs_le_refl. destruct (gr_lits _ _ _ _ _ _ _ _ K1) as (y & Hy). exists y. exact Hy. }
  assert (Hj1' : enc_jump (jump_bc k true) (3 + length bb + 3) j1).
  { rewrite app_length in Hj1. cbn [length] in Hj1. rewrite Nat.add_assoc in Hj1. exact Hj1. }
  pose proof (grows_else fields _ _ _ gi g2 gC g4 k c [IOp (OLit (som_bool is_or))] (jump_bc k true) (-1)%Z B_jump 0%Z bb bo2 j1 j2 ltac:(lia) ltac:(lia) G1' Hj1' eq_refl K1 Hj2 K2) as Gt.
  change (g_bytes gi) with bs in Gt.
  assert (Hbase : base scs gi (code c0 tl) (S h)) by (eapply base_same; [apply rep_base; exact Hc|..]; reflexivity).
  destruct (typ_else k c [IOp (OLit (som_bool is_or))] p 1 h G5 eq_refl) as (q & Hq).
  exists c. split; [|eauto]. split; auto.
  - assert (Hb' : base scs2 (with_bytes (bs ++ j1 ++ bb ++ j2 ++ bo2) g4) (code c0 tl ++ [IElse k c [IOp (OLit (som_bool is_or))]]) (S h)).
    { eapply base_grows; [exact Hbase|exact Gt|exact G3|exact Hq|].
      intros Hl. cbn [noret forallb noret_item op_noret]. rewrite !andb_true_r. apply G6; auto. }
    eapply base_same; [exact Hb'|..]; try reflexivity.
    cbn [reset_last with_last with_bytes with_inl g_bytes]. rewrite <- !app_assoc. reflexivity.
  - apply G4.
  - destruct (gr_lits _ _ _ _ _ _ _ _ Gt) as (y & Hy). exists y. exact Hy.
Qed.

Lemma while_ok b a1 a2 rho scs g c0 tl b1 bo1 b2 bo2 h g' scs' : st_ok scs rho ->
  rep scs g c0 ((OBlk a2 rho, b2, bo2) :: (OBlk a1 rho, b1, bo1) :: tl) (S (S h)) ->
  is_one_of b1 PUSH_BLOCK = true -> is_one_of b2 PUSH_BLOCK = true -> no_params a1 = true -> no_params a2 = true ->
  inline_while ce b (g, scs) = Ok (Some (g', scs')) ->
  exists c1 c2, inl_res rho scs g (code c0 tl) (S h) scs' g' [ILoop (if b then OnFalse else OnTrue) c1 (c2 ++ [IOp OPop]); IOp (OLit VNil)] /\
    (exists p, typ c1 0 = Some (1, p)) /\ (exists p, typ c2 0 = Some (1, p)) /\
    computes c1 (fun S X μ n s => eval_inline fields a1 μ rho n s) /\ computes c2 (fun S X μ n s => eval_inline fields a2 μ rho n s) /\
    oblks c1 = created_inl a1 rho /\ oblks c2 = created_inl a2 rho.
Proof.
  intros Hst Hr Hb1 Hb2 Hp1 Hp2 H. set (k := if b then OnFalse else OnTrue) in *.
  pose proof (lastb_nth _ _ _ _ _ _ 0 Hr ltac:(lia)) as L0. pose proof (lastb_nth _ _ _ _ _ _ 1 Hr ltac:(lia)) as L1.
  cbn [map app nth o_bc fst snd] in L0, L1.
  unfold inline_while in H. unfold two_blocks, last_one_of in H. rewrite L0, L1, Hb1, Hb2 in H. cbn [negb andb] in H.
  destruct (extract_blocks g) as [[[m1 m2] g1]|] eqn:Ee; [|discriminate]. cbn [Base.bind] in H.
  destruct (extract_ok _ _ _ _ _ _ _ _ _ _ _ _ _ _ _ Hr Hb1 Hb2 Ee) as (bs & A1 & A2 & -> & Hi1 & Hal1 & Hi2 & Hal2 & Hbase0).
  unfold emit_jump_on, emit_dummy in H. fold k in H.
  set (gi := with_inl true (with_bytes bs g)) in *.
  assert (Hbase : base scs gi (code c0 tl) h) by (eapply base_same; [exact Hbase0|..]; reflexivity).
  destruct (inline_method ce m1 (gi, scs)) as [[g1 scs1]|] eqn:E1; [|discriminate]. cbn [Base.bind] in H.
  destruct (inline_it scs rho A1 a1 m1 gi _ _ Hst Hi1 Hal1 Hp1 eq_refl E1) as (c1 & bb1 & G1 & G2 & G3 & G4 & (p1 & G5) & G6 & G7 & G8).
  assert (Eb1 : g_bytes g1 = bs ++ bb1) by (rewrite (gr_bytes _ _ _ _ _ _ _ _ G1); reflexivity).
  set (gA := emit3 (jump_bc k true) 0 0 (-1) g1) in *.
  destruct (inline_method ce m2 (gA, scs1)) as [[g2 scs2]|] eqn:E2; [|discriminate]. cbn [Base.bind] in H.
  destruct (impl_later _ _ _ _ _ _ Hi2 Hal2 G3) as [Hi2' Hal2'].
  assert (HinlA : g_inl gA = true) by (change (g_inl gA) with (g_inl g1); rewrite (gr_inl _ _ _ _ _ _ _ _ G1); reflexivity).
  destruct (inline_it scs1 rho A2 a2 m2 gA _ _ G4 Hi2' Hal2' Hp2 HinlA E2) as (c2 & bb2 & K1 & K2 & K3 & K4 & (p2 & K5) & K6 & K7 & K8).
  assert (Hinl2 : g_inl g2 = true) by (rewrite (gr_inl _ _ _ _ _ _ _ _ K1); auto).
  assert (Epop : emit_pop (reset_last g2) = Ok (emit1 B_pop (-1) (reset_last g2))).
  { unfold emit_pop, optimize_dup_pop_pop, peep_off. cbn [reset_last with_last g_inl]. rewrite Hinl2. reflexivity. }
  rewrite Epop in H. cbn [Base.bind] in H. set (g3 := emit1 B_pop (-1) (reset_last g2)) in *.
  assert (K3' : grows (cx_of scs2) (g_lits g3) (A_of scs2) gA g3 (c2 ++ [IOp OPop]) (bb2 ++ [num B_pop])).
  { eapply grows_trans; [exact K1|]. eapply grows_src; [exact (emits_grows fields _ _ _ _ _ _ _ _ (emits_pop fields (cx_of scs2) (g_lits g3) (A_of scs2) (reset_last g2)))|..]; reflexivity. }
  match type of H with context [emit_backwards_jump ?n g3] => change n with (length (g_bytes gi)) in H end.
  destruct (emit_backwards_jump (length (g_bytes gi)) g3) as [g4|] eqn:E4; [|discriminate]. cbn [Base.bind] in H.
  destruct (back_spec _ _ _ E4) as (bb & x & y & E4' & Hj2).
  destruct (patch_jump (S (length (g_bytes g1))) g4) as [g5|] eqn:E5; [|discriminate]. cbn [Base.bind] in H.
  assert (Eb3 : g_bytes g3 = (bs ++ bb1) ++ [num (jump_bc k true); 0; 0] ++ (bb2 ++ [num B_pop])).
  { rewrite (gr_bytes _ _ _ _ _ _ _ _ K3'). unfold gA. rewrite emit3_bytes, Eb1, <- !app_assoc. reflexivity. }
  destruct (patch_spec (jump_bc k true) (num (jump_bc k true)) (bs ++ bb1) ((bb2 ++ [num B_pop]) ++ [num bb; x; y]) 0 0 (S (length (g_bytes g1))) g4 g5) as (j1 & -> & Hj1); eauto.
  { rewrite Eb1. reflexivity. }
  { rewrite E4'. cbn [with_loops g_bytes]. rewrite emit3_bytes, Eb3, <- !app_assoc. reflexivity. }
  apply (f_equal (fun r => match r with Ok (Some c) => c | _ => (g, scs) end)) in H. cbv beta iota in H. injection H as <- <-.
  set (bb3 := bb2 ++ [num B_pop]) in *.
  set (g5 := with_bytes ((bs ++ bb1) ++ j1 ++ bb3 ++ [num bb; x; y]) g4) in *.
  assert (Hj1' : enc_jump (jump_bc k true) (3 + length bb3 + 3) j1).
  { rewrite app_length in Hj1. cbn [length] in Hj1. rewrite Nat.add_assoc in Hj1. exact Hj1. }
  assert (Hj2' : enc_jump B_jump_backward (length bb1 + 3 + length bb3) [num bb; x; y]).
  { replace (length bb1 + 3 + length bb3) with (length (g_bytes g3) - length (g_bytes gi)); [exact Hj2|].
    rewrite Eb3, !app_length. change (g_bytes gi) with bs. cbn [length]. lia. }
  assert (G1' : grows (cx_of scs2) (g_lits g3) (A_of scs2) gi g1 c1 bb1).
  { eapply grows_le; eauto. destruct (gr_lits _ _ _ _ _ _ _ _ K3') as (z & Hz). exists z. exact Hz. }
  assert (E5' : g5 = with_bytes (g_bytes gi ++ bb1 ++ j1 ++ bb3 ++ [num bb; x; y])
    (with_loops (g_loops g3 ++ [(length (g_bytes gi), length (g_bytes g3))]) (emit3 bb 0 0 0 g3))).
  { unfold g5. rewrite E4'. change (g_bytes gi) with bs. rewrite <- app_assoc. reflexivity. }
  pose proof (grows_loop fields _ _ _ gi g1 g3 g5 k c1 (c2 ++ [IOp OPop]) (jump_bc k true) (-1)%Z bb 0%Z bb1 bb3 j1 [num bb; x; y] ltac:(lia) ltac:(lia) G1' K3' Hj1' Hj2' E5') as Gt.
  assert (Elits : g_lits g5 = g_lits g3) by (rewrite E5'; reflexivity).
  destruct (typ_loop k c1 c2 p1 p2 h G5 K5) as (q & Hq).
  assert (Hb5 : base scs2 g5 (code c0 tl ++ [ILoop k c1 (c2 ++ [IOp OPop])]) h).
  { eapply base_grows; [exact Hbase| |eapply scs_le_trans; eauto|exact Hq|].
    - rewrite Elits. exact Gt.
    - intros Hl. cbn [noret forallb noret_item]. rewrite andb_true_r. apply andb_true_iff. split; [apply G6; auto|].
      fold (noret (c2 ++ [IOp OPop])). rewrite noret_app. apply andb_true_iff. split; [|reflexivity]. apply K6. rewrite (scs_le_length _ _ G3). auto. }
  destruct (emits_const fields (cx_of scs2) (g_lits (emit_push_constant (LV VNil) g5)) (A_of scs2) g5 (LV VNil) VNil eq_refl) as (b6 & bo6 & He & _); [apply keeps_refl|].
  assert (Hb6 : base scs2 (emit_push_constant (LV VNil) g5) ((code c0 tl ++ [ILoop k c1 (c2 ++ [IOp OPop])]) ++ [IOp (OLit VNil)]) (S h)).
  { eapply base_grows; [exact Hb5|exact (emits_grows fields _ _ _ _ _ _ _ _ He)|apply scs_le_refl|apply typ_one; reflexivity|reflexivity]. }
  exists c1, c2. split; [|eauto 12]. split; auto.
  - rewrite <- app_assoc in Hb6. eapply base_same; [exact Hb6|..]; reflexivity.
  - eapply scs_le_trans; eauto.
  - apply K4.
  - destruct (gr_lits _ _ _ _ _ _ _ _ Gt) as (z & Hz). exists z. exact Hz.
Qed.

Lemma inl_gen e rho scs g c0 tl h scs1 g1 c scs' g' d1 d2 :
  inl_res rho scs1 g1 c (S h) scs' g' d2 -> c = code c0 tl ++ d1 -> scs_le scs scs1 -> (exists x, g_lits g1 = g_lits g ++ x) ->
  is_block e = false -> (exists p, typ (d1 ++ d2) 0 = Some (1, p)) -> computes (d1 ++ d2) (fun S X μ n s => eval fields e μ rho n s) ->
  (forall v, d1 ++ d2 <> [IOp (OLit v)]) -> oblks (d1 ++ d2) = created e rho ->
  exists d c0' tl', gen_res e rho scs g c0 tl h scs' g' d c0' tl'.
Proof.
  intros [I1 I2 I3 I4 (y & I5)] -> Hs (x & Hx) Hb Ht Hc Hn Hin.
  exists (d1 ++ d2), (code c0 tl ++ d1 ++ d2), []. split; auto.
  - apply code_nil.
  - apply base_rep; auto. rewrite app_assoc. auto.
  - eapply scs_le_trans; eauto.
  - exists (x ++ y). rewrite I5, Hx, app_assoc. auto.
  - rewrite Hb. unfold lastb. rewrite I2. reflexivity.
  - unfold end_ok, lastb. rewrite I2. split; discriminate.
  - intros v _ E. destruct (Hn _ E).
Qed.

Fixpoint gen_args (l : list src) (c : ctx) : res ctx :=
  match l with [] => Ok c | a :: l => c <- gen ce a c ;; gen_args l c end.
Lemma gen_send_eq sup r sel args c : gen ce (SSend sup r sel args) c = (c <- gen ce r c ;; c <- gen_args args c ;; gen_message ce sup sel c).
Proof. reflexivity. Qed.
Lemma args_ok rho l : Forall gen_ok l -> forallb ok_src l = true -> forall scs g c0 tl h g' scs', st_ok scs rho -> rep scs g c0 tl h ->
  gen_args l (g, scs) = Ok (g', scs') ->
  exists d c0' tl', code c0' tl' = code c0 tl ++ d /\ rep scs' g' c0' tl' (length l + h) /\ scs_le scs scs' /\ outs_ok scs' /\
    (exists x, g_lits g' = g_lits g ++ x) /\ (exists p, typ d 0 = Some (length l, p)) /\
    (forall S X (μ : machine S X), lawful μ -> forall n vs st s, exec μ d n (rev vs ++ st) s =
      bind (eval_args fields l μ rho n vs s) (fun vs s => Done (rev vs ++ st) s)) /\
    oblks d = (flat_map (fun a => created a rho) l).
Proof.
  intros Hl. induction Hl as [|a l Ha Hl IH]; intros Hok scs g c0 tl h g' scs' Hst Hr H.
  - injection H as <- <-. exists [], c0, tl. rewrite app_nil_r. split; auto. split; auto. split; [apply scs_le_refl|]. split; [apply Hst|].
    split; [exists []; rewrite app_nil_r; auto|]. split; [exists 0; reflexivity|]. split; reflexivity.
  - cbn [forallb] in Hok. apply andb_true_iff in Hok. destruct Hok as [Hoa Hol]. cbn [gen_args] in H.
    destruct (gen ce a (g, scs)) as [[g1 scs1]|] eqn:E; [|discriminate]. cbn [Base.bind] in H.
    destruct (Ha Hoa _ _ _ _ _ _ _ _ Hst Hr E) as (d1 & c1 & tl1 & R).
    pose proof (gs_st _ _ _ _ _ _ _ _ _ _ _ _ _ R Hst) as Hst1. destruct R as [R1 R2 R3 R4 (y & R5) R6 (p & R7) _ _ _ R11].
    destruct (IH Hol _ _ _ _ _ _ _ Hst1 R2 H) as (d & c' & tl' & A1 & A2 & A3 & A4 & (z & A5) & (q & A6) & A7 & A8).
    exists (d1 ++ d), c', tl'. split; [rewrite A1, R1, app_assoc; auto|]. split; [rewrite Nat.add_succ_r in A2; exact A2|].
    split; [eapply scs_le_trans; eauto|]. split; auto. split; [exists (y ++ z); rewrite A5, R5, app_assoc; auto|]. split; [|split].
    + pose proof (typ_shift 1 _ _ _ _ A6) as T. rewrite typ_app, R7. cbn [hseq]. change (1 + 0) with 1 in T. rewrite T. cbn [length]. rewrite Nat.add_1_l. eauto.
    + intros S X μ Hμ n vs st s. rewrite exec_app, R6 by auto. cbn [eval_args]. rewrite !bind_assoc. apply bind_ext. intros v s1. cbn [bind].
      specialize (A7 S X μ Hμ n (vs ++ [v]) st s1). rewrite rev_app_distr in A7. exact A7.
    + rewrite oblks_app. cbn [flat_map]. f_equal; auto.
Qed.
Lemma args_len {S X} l (μ : machine S X) rho n : forall vs s vs' s', eval_args fields l μ rho n vs s = Done vs' s' -> length vs' = length vs + length l.
Proof.
  induction l as [|a l IH]; intros vs s vs' s' H; cbn [eval_args] in H.
  - injection H as <- <-. simpl. lia.
  - destruct (eval fields a μ rho n s) as [v s1| | | |]; try discriminate. cbn [bind] in H. apply IH in H. rewrite app_length in H. simpl in *. lia.
Qed.
Lemma popn_rev {S X B} (vs st : list value) (f : list value -> list value -> out S X B) : popn (length vs) (rev vs ++ st) f = f vs st.
Proof.
  unfold popn. rewrite app_length, rev_length. replace (_ <=? _) with true by (symmetry; apply Nat.leb_le; lia).
  rewrite <- (rev_length vs), firstn_app, skipn_app, Nat.sub_diag, firstn_all, skipn_all. cbn [firstn skipn].
  rewrite app_nil_r, rev_involutive. reflexivity.
Qed.

Lemma special_nargs sel k : special_of sel = Some k -> nargs sel = match k with KElse _ => 3 | _ => 2 end.
Proof.
  unfold special_of.
  repeat (destruct (text_eqb _ _) eqn:E; [apply text_eqb_eq in E; subst; intros H; injection H as <-; reflexivity|clear E]).
  discriminate.
Qed.

Lemma not_inlined rho r sel args k scs g c0 tl h g1 scs1 g2 scs2 : gen_ok r -> Forall gen_ok args -> ok_src r = true -> forallb ok_src args = true ->
  nargs sel = S (length args) -> special_of sel = Some k -> special_form false r sel args = None ->
  st_ok scs rho -> rep scs g c0 tl h -> gen ce r (g, scs) = Ok (g1, scs1) -> gen_args args (g1, scs1) = Ok (g2, scs2) ->
  try_inline ce k (g2, scs2) = Ok None.
Proof.
  intros Hr Ha Hor Hoa Hn Hk Hf Hst H0 H1 H2. pose proof (special_nargs _ _ Hk) as Hn'.
  destruct (Hr Hor _ _ _ _ _ _ _ _ Hst H0 H1) as (d1 & c1 & tl1 & R1).
  pose proof (gs_st _ _ _ _ _ _ _ _ _ _ _ _ _ R1 Hst) as Hst1.
  assert (Hn2 : S (length args) = match k with KElse _ => 3 | _ => 2 end) by congruence.
  unfold special_form in Hf. rewrite Hk in Hf.
  destruct args as [|a args]; [destruct k; discriminate|]. cbn [gen_args] in H2.
  destruct (gen ce a (g1, scs1)) as [[g3 scs3]|] eqn:E3; [|discriminate]. cbn [Base.bind] in H2.
  inversion Ha as [|? ? Ha1 Ha2]; subst. cbn [forallb] in Hoa. apply andb_true_iff in Hoa. destruct Hoa as [Ho1 Ho2].
  destruct (Ha1 Ho1 _ _ _ _ _ _ _ _ Hst1 (gs_rep _ _ _ _ _ _ _ _ _ _ _ _ _ R1) E3) as (d3 & c3 & tl3 & R3).
  pose proof (gs_st _ _ _ _ _ _ _ _ _ _ _ _ _ R3 Hst1) as Hst3.
  destruct args as [|a' args].
  - cbn [gen_args] in H2. injection H2 as <- <-.
    pose proof (gs_blk _ _ _ _ _ _ _ _ _ _ _ _ _ R3) as B3. pose proof (gs_blk _ _ _ _ _ _ _ _ _ _ _ _ _ R1) as B1.
    destruct k as [k|k|b|b]; cbn [try_inline]; try discriminate.
    + destruct (is_block a); [discriminate|]. unfold inline_then_branch, last_one_of. rewrite B3. reflexivity.
    + unfold inline_while, two_blocks, last_one_of.
      destruct (is_block a); [|rewrite B3, ?andb_false_r; reflexivity].
      destruct (is_block r); [discriminate|]. destruct B3 as (-> & b3 & bo3 & -> & B3).
      rewrite (lastb_nth _ _ _ _ _ _ 1 (gs_rep _ _ _ _ _ _ _ _ _ _ _ _ _ R3)) by lia.
      rewrite (lastb_nth _ _ _ _ _ _ 0 (gs_rep _ _ _ _ _ _ _ _ _ _ _ _ _ R1)) in B1 by lia.
      cbn [map app nth]. destruct (map o_bc tl1 ++ no_last) as [|x0 l0]; cbn [nth] in B1 |- *; rewrite B1, ?andb_false_r; reflexivity.
    + destruct (is_block a); [discriminate|]. unfold inline_andor, last_one_of. rewrite B3. reflexivity.
  - destruct args as [|? ?]; [|destruct k; discriminate]. destruct k as [k|k|b|b]; try discriminate.
    inversion Ha2 as [|? ? Ha3 _]; subst. cbn [forallb] in Ho2. rewrite andb_true_r in Ho2.
    cbn [gen_args] in H2. destruct (gen ce a' (g3, scs3)) as [[g4 scs4]|] eqn:E4; [|discriminate]. cbn [Base.bind] in H2. injection H2 as <- <-.
    destruct (Ha3 Ho2 _ _ _ _ _ _ _ _ Hst3 (gs_rep _ _ _ _ _ _ _ _ _ _ _ _ _ R3) E4) as (d4 & c4 & tl4 & R4).
    pose proof (gs_blk _ _ _ _ _ _ _ _ _ _ _ _ _ R4) as B4. pose proof (gs_blk _ _ _ _ _ _ _ _ _ _ _ _ _ R3) as B3.
    cbn [try_inline]. unfold inline_then_else, two_blocks, last_one_of.
    destruct (is_block a'); [|rewrite B4, ?andb_false_r; reflexivity].
    destruct (is_block a); [discriminate|]. destruct B4 as (-> & b4 & bo4 & -> & B4).
    rewrite (lastb_nth _ _ _ _ _ _ 1 (gs_rep _ _ _ _ _ _ _ _ _ _ _ _ _ R4)) by lia.
    rewrite (lastb_nth _ _ _ _ _ _ 0 (gs_rep _ _ _ _ _ _ _ _ _ _ _ _ _ R3)) in B3 by lia.
    cbn [map app nth]. destruct (map o_bc tl3 ++ no_last) as [|x0 l0]; cbn [nth] in B3 |- *; rewrite B3, ?andb_false_r; reflexivity.
Qed.

Lemma plain_send sup rho r sel args scs g c0 tl h g1 scs1 g2 scs2 : gen_ok r -> Forall gen_ok args -> ok_src r = true -> forallb ok_src args = true ->
  nargs sel = S (length args) -> special_form sup r sel args = None ->
  st_ok scs rho -> rep scs g c0 tl h -> gen ce r (g, scs) = Ok (g1, scs1) -> gen_args args (g1, scs1) = Ok (g2, scs2) ->
  exists d c0' tl', gen_res (SSend sup r sel args) rho scs g c0 tl h scs2 (if sup then emit_super_send sel g2 else emit_send sel g2) d c0' tl'.
Proof.
  intros Hr Ha Hor Hoa Hn Hf Hst H0 H1 H2.
  destruct (Hr Hor _ _ _ _ _ _ _ _ Hst H0 H1) as (d1 & c1 & tl1 & R1).
  pose proof (gs_st _ _ _ _ _ _ _ _ _ _ _ _ _ R1 Hst) as Hst1.
  destruct R1 as [R1 R2 R3 R4 (y & R5) R6 (p & R7) _ _ _ R11].
  destruct (args_ok rho args Ha Hoa _ _ _ _ _ _ _ Hst1 R2 H2) as (d & c' & tl' & A1 & A2 & A3 & A4 & (z & A5) & (q & A6) & A7 & A8).
  set (g' := if sup then emit_super_send sel g2 else emit_send sel g2).
  set (o := if sup then OSuper sel else OSend sel).
  assert (He : exists b bo, emits (cx_of scs2) (g_lits g') (A_of scs2) g2 g' o b bo).
  { unfold g', o. destruct sup.
    - destruct (emits_super fields (cx_of scs2) (g_lits (emit_super_send sel g2)) (A_of scs2) g2 sel (keeps_refl _ _)) as (bo & K). eauto.
    - destruct (emits_send fields (cx_of scs2) (g_lits (emit_send sel g2)) (A_of scs2) g2 sel (keeps_refl _ _)) as (bo & K). eauto. }
  destruct He as (b & bo & He).
  assert (Hh : forall h, op_ht o (length args + S h) = Some (S h)).
  { intros h0. assert (E : (if nargs sel <=? length args + S h0 then Some (S (length args + S h0 - nargs sel)) else None) = Some (S h0)).
    { rewrite Hn. replace (_ <=? _) with true by (symmetry; apply Nat.leb_le; lia). f_equal. lia. }
    unfold o. destruct sup; exact E. }
  assert (Hv : value_op o) by (unfold o; destruct sup; exact Logic.I).
  assert (Hr' : rep scs2 g' c' ((o, b, bo) :: tl') (S h)).
  { eapply rep_emit; [exact A2|exact He|apply scs_le_refl|apply Hh|..]; unfold o; destruct sup; intros; [reflexivity..|exact Logic.I|exact Logic.I]. }
  destruct (value_end _ _ _ _ _ _ _ Hr' Hv) as [E1 E2].
  exists ((d1 ++ d) ++ [IOp o]), c', ((o, b, bo) :: tl'). split; auto.
  - rewrite code_cons, A1, R1, !app_assoc. reflexivity.
  - eapply scs_le_trans; eauto.
  - destruct (em_lits _ _ _ _ _ _ _ _ _ He) as (x & ->). exists (y ++ z ++ x). rewrite A5, R5, !app_assoc. auto.
  - intros S X μ Hμ n st s. rewrite !exec_app, R6 by auto. rewrite eval_send, Hf. unfold eval_message. rewrite !bind_assoc. apply bind_ext. intros v s1.
    cbn [bind]. specialize (A7 S X μ Hμ n [v] st s1). cbn [rev app] in A7. rewrite A7. rewrite !bind_assoc.
    destruct (eval_args fields args μ rho n [v] s1) as [vs s2| | | |] eqn:Ev; auto. cbn [bind].
    apply args_len in Ev. cbn [length] in Ev. rewrite Nat.add_1_l in Ev. rewrite exec_op1. unfold o. destruct sup; cbn [exec_op]; rewrite Hn, <- Ev, popn_rev; reflexivity.
  - pose proof (typ_shift 1 _ _ _ _ A6) as T. rewrite !typ_app, R7. cbn [hseq]. change (1 + 0) with 1 in T. rewrite T. cbn [hseq].
    rewrite (typ_one o (1 + length args) 1); eauto. rewrite Nat.add_comm. apply Hh.
  - intros v _ Eo. exfalso. apply (f_equal (@length item)) in Eo. rewrite !app_length in Eo. cbn [length] in Eo.
    destruct d1 as [|i d1]; [discriminate|]. cbn [length] in Eo. lia.
  - rewrite !oblks_app, (value_oblks _ Hv), app_nil_r, created_send, Hf. f_equal; auto.
Qed.

Lemma loop_sem {S X} (μ : machine S X) c1 c2 (t b : nat -> S -> out S X value) k :
  (forall n st s, exec μ c1 n st s = bind (t n s) (fun v s => Done (v :: st) s)) ->
  (forall n st s, exec μ c2 n st s = bind (b n s) (fun v s => Done (v :: st) s)) ->
  forall n st s, bind (exec_loop n (exec μ c1) (exec μ (c2 ++ [IOp OPop])) k st s) (fun st s => exec μ [IOp (OLit VNil)] n st s) =
    bind (repeat_while n t b k s) (fun v s => Done (v :: st) s).
Proof.
  intros H1 H2 n st. enough (H : forall m s, bind (exec_loop n (exec μ c1) (exec μ (c2 ++ [IOp OPop])) k st s) (fun st s => exec μ [IOp (OLit VNil)] m st s) =
    bind (repeat_while n t b k s) (fun v s => Done (v :: st) s)) by auto.
  intros m. induction n as [|n IH]; intros s; [reflexivity|].
  cbn [exec_loop repeat_while]. rewrite H1, !bind_assoc. apply bind_ext. intros v s1. cbn [bind pop].
  destruct (takes k v); [reflexivity|]. rewrite exec_app, H2, !bind_assoc. apply bind_ext. intros w s2. cbn [bind]. rewrite exec_op1. cbn [exec_op pop bind].
  apply IH.
Qed.


Ltac binds H := repeat match type of H with
  | context [Base.bind ?m _] => destruct m as [?|]; cbn [Base.bind] in H; [|discriminate]
  | context [let '(_, _) := ?p in _] => destruct p
  end.
Lemma then_some k c : inline_then_branch ce k c = Ok None -> last_one_of 0 PUSH_BLOCK (fst c) = false.
Proof. destruct c as [g scs]. cbn [fst]. unfold inline_then_branch. destruct (last_one_of _ _ _); auto. cbn [negb]. intros H. binds H. discriminate. Qed.
Lemma else_some k c : inline_then_else ce k c = Ok None -> two_blocks (fst c) = false.
Proof. destruct c as [g scs]. cbn [fst]. unfold inline_then_else. destruct (two_blocks _); auto. cbn [negb]. intros H. binds H. discriminate. Qed.
Lemma while_some k c : inline_while ce k c = Ok None -> two_blocks (fst c) = false.
Proof. destruct c as [g scs]. cbn [fst]. unfold inline_while. destruct (two_blocks _); auto. cbn [negb]. intros H. binds H. discriminate. Qed.
Lemma andor_some k c : inline_andor ce k c = Ok None -> last_one_of 0 PUSH_BLOCK (fst c) = false.
Proof. destruct c as [g scs]. cbn [fst]. unfold inline_andor. destruct (last_one_of _ _ _); auto. cbn [negb]. intros H. binds H. discriminate. Qed.

Lemma gen_send sup r sel args : gen_ok r -> Forall gen_ok args -> gen_ok (SSend sup r sel args).
Proof.
  intros Hr Ha Hok rho scs g c0 tl h g' scs' Hst H0 H. rewrite gen_send_eq in H.
  destruct (gen ce r (g, scs)) as [[g1 scs1]|] eqn:E1; [|discriminate]. cbn [Base.bind] in H.
  destruct (gen_args args (g1, scs1)) as [[g2 scs2]|] eqn:E2; [|discriminate]. cbn [Base.bind] in H.
  cbn [ok_src] in Hok. apply andb_true_iff in Hok. destruct Hok as [Hok Hsp]. apply andb_true_iff in Hok. destruct Hok as [Hok Hn].
  apply andb_true_iff in Hok. destruct Hok as [Hor Hoa]. apply Nat.eqb_eq in Hn.
  destruct (special_form sup r sel args) as [k|] eqn:Ef.
  2:{ destruct (plain_send sup rho r sel args _ _ _ _ _ _ _ _ _ Hr Ha Hor Hoa Hn Ef Hst H0 E1 E2) as (d & c' & tl' & R).
      unfold gen_message in H. destruct sup.
      - cbn [fst snd] in H. injection H as <- <-. eauto.
      - destruct (special_of sel) as [k|] eqn:Ek.
        + rewrite (not_inlined rho r sel args k _ _ _ _ _ _ _ _ _ Hr Ha Hor Hoa Hn Ek Ef Hst H0 E1 E2) in H. cbn [Base.bind fst snd] in H. injection H as <- <-. eauto.
        + cbn [Base.bind fst snd] in H. injection H as <- <-. eauto. }
  pose proof (special_shape _ _ _ _ _ Ef) as (-> & Ek & Hshape).
  unfold gen_message in H. rewrite Ek in H.
  destruct (Hr Hor _ _ _ _ _ _ _ _ Hst H0 E1) as (d1 & c1 & tl1 & R1).
  pose proof (gs_st _ _ _ _ _ _ _ _ _ _ _ _ _ R1 Hst) as Hst1.
  assert (Hd1 : forall v i, d1 ++ [i] <> [IOp (OLit v)]).
  { intros v i Eq. destruct (gs_typ _ _ _ _ _ _ _ _ _ _ _ _ _ R1) as (p & Hp). destruct d1 as [|? [|]]; discriminate. }

  assert (Es : (try_inline ce k (g2, scs2) = Ok None -> False) -> try_inline ce k (g2, scs2) = Ok (Some (g', scs'))).
  { intros Hnone. destruct (try_inline ce k (g2, scs2)) as [[c|]|]; [|destruct (Hnone eq_refl)|discriminate].
    cbn [Base.bind] in H. injection H as ->. reflexivity. }
  clear H. cbn [try_inline] in Es. destruct k as [k|k|b|b]; cbn [try_inline] in Es.
  - destruct Hshape as (a & -> & Hb). cbn [gen_args] in E2.
    destruct (gen ce a (g1, scs1)) as [[g3 scs3]|] eqn:E3; [|discriminate]. cbn [Base.bind] in E2. injection E2 as -> ->.
    inversion Ha as [|? ? Ha1 _]; subst. cbn [forallb] in Hoa, Hsp. rewrite andb_true_r in Hoa, Hsp.
    destruct (Ha1 Hoa _ _ _ _ _ _ _ _ Hst1 (gs_rep _ _ _ _ _ _ _ _ _ _ _ _ _ R1) E3) as (d3 & c3 & tl3 & R3).
    pose proof (gs_st _ _ _ _ _ _ _ _ _ _ _ _ _ R3 Hst1) as Hst3.
    pose proof (gs_blk _ _ _ _ _ _ _ _ _ _ _ _ _ R3) as B3. rewrite Hb in B3. destruct B3 as (-> & b3 & bo3 & -> & B3).
    pose proof (gs_rep _ _ _ _ _ _ _ _ _ _ _ _ _ R3) as Hr3.
    pose proof (lastb_cons _ _ _ _ _ _ _ Hr3) as L0. cbn [o_bc fst snd] in L0.

    assert (Ei : inline_then_branch ce k (g2, scs2) = Ok (Some (g', scs'))).
    { apply Es. intros E. apply then_some in E. cbn [fst] in E. unfold last_one_of in E. congruence. }
    destruct (then_ok _ _ _ _ _ _ _ _ _ _ _ _ Hst3 Hr3 B3 Hsp Ei) as (c & I1 & (q & I2) & I3 & I6).
    eapply inl_gen; [exact I1|exact (gs_code _ _ _ _ _ _ _ _ _ _ _ _ _ R1)|..]; auto.
    + eapply scs_le_trans; [apply R1|apply R3].
    + destruct (gs_lits _ _ _ _ _ _ _ _ _ _ _ _ _ R1) as (x & Hx). destruct (gs_lits _ _ _ _ _ _ _ _ _ _ _ _ _ R3) as (y & Hy).
      exists (x ++ y). rewrite Hy, Hx, app_assoc. auto.
    + destruct (gs_typ _ _ _ _ _ _ _ _ _ _ _ _ _ R1) as (p & Hp). destruct (typ_then k c q 0 I2) as (q' & T). rewrite typ_app, Hp. cbn [hseq]. rewrite T. eauto.
    + intros S X μ Hμ n st s. rewrite exec_app, (gs_sem _ _ _ _ _ _ _ _ _ _ _ _ _ R1) by auto. rewrite eval_send, Ef. cbn [eval_special].
      rewrite !bind_assoc. apply bind_ext. intros v s1. cbn [bind exec]. rewrite bind_done, exec_item_eq. cbn [pop].
      destruct (takes k v); [reflexivity|]. apply I3; auto.
    + rewrite created_send, Ef, oblks_app. f_equal; [apply R1|]. cbn. rewrite !app_nil_r. exact I6.
  - destruct Hshape as (a & a' & -> & Hb & Hb'). cbn [gen_args] in E2.
    destruct (gen ce a (g1, scs1)) as [[g3 scs3]|] eqn:E3; [|discriminate]. cbn [Base.bind] in E2.
    destruct (gen ce a' (g3, scs3)) as [[g4 scs4]|] eqn:E4; [|discriminate]. cbn [Base.bind] in E2. injection E2 as -> ->.
    inversion Ha as [|? ? Ha1 Ha2]; subst. inversion Ha2 as [|? ? Ha3 _]; subst. cbn [forallb] in Hoa, Hsp. rewrite andb_true_r in Hoa, Hsp.
    apply andb_true_iff in Hoa, Hsp. destruct Hoa as [Ho1 Ho2], Hsp as [Hp1 Hp2].
    destruct (Ha1 Ho1 _ _ _ _ _ _ _ _ Hst1 (gs_rep _ _ _ _ _ _ _ _ _ _ _ _ _ R1) E3) as (d3 & c3 & tl3 & R3).
    pose proof (gs_st _ _ _ _ _ _ _ _ _ _ _ _ _ R3 Hst1) as Hst3.
    destruct (Ha3 Ho2 _ _ _ _ _ _ _ _ Hst3 (gs_rep _ _ _ _ _ _ _ _ _ _ _ _ _ R3) E4) as (d4 & c4 & tl4 & R4).
    pose proof (gs_st _ _ _ _ _ _ _ _ _ _ _ _ _ R4 Hst3) as Hst4.
    pose proof (gs_blk _ _ _ _ _ _ _ _ _ _ _ _ _ R3) as B3. rewrite Hb in B3. destruct B3 as (-> & b3 & bo3 & -> & B3).
    pose proof (gs_blk _ _ _ _ _ _ _ _ _ _ _ _ _ R4) as B4. rewrite Hb' in B4. destruct B4 as (-> & b4 & bo4 & -> & B4).
    pose proof (gs_rep _ _ _ _ _ _ _ _ _ _ _ _ _ R4) as Hr4.
    pose proof (lastb_nth _ _ _ _ _ _ 0 Hr4 ltac:(lia)) as L0. pose proof (lastb_nth _ _ _ _ _ _ 1 Hr4 ltac:(lia)) as L1.
    cbn [map app nth o_bc fst snd] in L0, L1.
    assert (Ei : inline_then_else ce k (g2, scs2) = Ok (Some (g', scs'))).
    { apply Es. intros E. apply else_some in E. cbn [fst] in E. unfold two_blocks, last_one_of in E. rewrite L0, L1, B3, B4 in E. discriminate. }
    destruct (else_ok _ _ _ _ _ _ _ _ _ _ _ _ _ _ _ Hst4 Hr4 B3 B4 Hp1 Hp2 Ei) as (k1 & k2 & I1 & (q1 & I2) & (q2 & I3) & I4 & I5 & I6 & I7).
    eapply inl_gen; [exact I1|exact (gs_code _ _ _ _ _ _ _ _ _ _ _ _ _ R1)|..]; auto.
    + eapply scs_le_trans; [apply R1|]. eapply scs_le_trans; [apply R3|apply R4].
    + destruct (gs_lits _ _ _ _ _ _ _ _ _ _ _ _ _ R1) as (x & Hx). destruct (gs_lits _ _ _ _ _ _ _ _ _ _ _ _ _ R3) as (y & Hy).
      destruct (gs_lits _ _ _ _ _ _ _ _ _ _ _ _ _ R4) as (z & Hz).
      exists (x ++ y ++ z). rewrite Hz, Hy, Hx, !app_assoc. auto.
    + destruct (gs_typ _ _ _ _ _ _ _ _ _ _ _ _ _ R1) as (p & Hp). destruct (typ_else k k1 k2 q1 q2 0 I2 I3) as (q' & T). rewrite typ_app, Hp. cbn [hseq]. rewrite T. eauto.
    + intros S X μ Hμ n st s. rewrite exec_app, (gs_sem _ _ _ _ _ _ _ _ _ _ _ _ _ R1) by auto. rewrite eval_send, Ef. cbn [eval_special].
      rewrite !bind_assoc. apply bind_ext. intros v s1. cbn [bind exec]. rewrite bind_done, exec_item_eq. cbn [pop].
      destruct (takes k v); [apply I5|apply I4]; auto.
    + rewrite created_send, Ef, oblks_app. f_equal; [apply R1|]. cbn. rewrite !app_nil_r. f_equal; auto.
  - destruct Hshape as (a & -> & Hbr & Hb). cbn [gen_args] in E2.
    destruct (gen ce a (g1, scs1)) as [[g3 scs3]|] eqn:E3; [|discriminate]. cbn [Base.bind] in E2. injection E2 as -> ->.
    apply andb_true_iff in Hsp. destruct Hsp as [Hpr Hsp].
    inversion Ha as [|? ? Ha1 _]; subst. cbn [forallb] in Hoa, Hsp. rewrite andb_true_r in Hoa, Hsp.
    destruct (Ha1 Hoa _ _ _ _ _ _ _ _ Hst1 (gs_rep _ _ _ _ _ _ _ _ _ _ _ _ _ R1) E3) as (d3 & c3 & tl3 & R3).
    pose proof (gs_st _ _ _ _ _ _ _ _ _ _ _ _ _ R3 Hst1) as Hst3.
    pose proof (gs_blk _ _ _ _ _ _ _ _ _ _ _ _ _ R3) as B3. rewrite Hb in B3. destruct B3 as (-> & b3 & bo3 & -> & B3).
    pose proof (gs_rep _ _ _ _ _ _ _ _ _ _ _ _ _ R3) as Hr3.
    pose proof (lastb_cons _ _ _ _ _ _ _ Hr3) as L0. cbn [o_bc fst snd] in L0.

    pose proof (gs_blk _ _ _ _ _ _ _ _ _ _ _ _ _ R1) as B1. rewrite Hbr in B1. destruct B1 as (-> & b1 & bo1 & -> & B1).
    pose proof (lastb_nth _ _ _ _ _ _ 1 Hr3 ltac:(lia)) as L1. cbn [map app nth o_bc fst snd] in L1.
    assert (Ei : inline_while ce b (g2, scs2) = Ok (Some (g', scs'))).
    { apply Es. intros E. apply while_some in E. cbn [fst] in E. unfold two_blocks, last_one_of in E. rewrite L0, L1, B1, B3 in E. discriminate. }
    destruct (while_ok _ _ _ _ _ _ _ _ _ _ _ _ _ _ _ Hst3 Hr3 B1 B3 Hpr Hsp Ei) as (k1 & k2 & I1 & (q1 & I2) & (q2 & I3) & I4 & I5 & I6 & I7).
    eapply (inl_gen _ _ _ _ _ _ _ _ _ _ _ _ []); [exact I1|symmetry; apply app_nil_r|..]; auto.
    + eapply scs_le_trans; [apply R1|apply R3].
    + destruct (gs_lits _ _ _ _ _ _ _ _ _ _ _ _ _ R1) as (x & Hx). destruct (gs_lits _ _ _ _ _ _ _ _ _ _ _ _ _ R3) as (y & Hy).
      exists (x ++ y). rewrite Hy, Hx, app_assoc. auto.
    + destruct (typ_loop (if b then OnFalse else OnTrue) k1 k2 q1 q2 0 I2 I3) as (q' & T). cbn [app].
      match goal with |- exists p, typ [?i; ?j] 0 = _ => change [i; j] with ([i] ++ [j]) end. rewrite typ_app, T. cbn [hseq]. rewrite (typ_one _ 0 1) by reflexivity. eauto.
    + intros S X μ Hμ n st s. rewrite eval_send, Ef. cbn [eval_special app].
      rewrite <- (loop_sem μ k1 k2 (eval_inline fields r μ rho) (eval_inline fields a μ rho) (if b then OnFalse else OnTrue)) by (intros; [apply I4 || apply I5]; auto).
      cbn [exec]. rewrite exec_item_eq. reflexivity.
    + intros v. discriminate.
    + rewrite created_send, Ef. cbn. rewrite !app_nil_r. fold (oblks (k2 ++ [IOp OPop])). rewrite oblks_app. cbn [oblks flat_map oblks_item]. rewrite app_nil_r. f_equal; auto.
  - destruct Hshape as (a & -> & Hb). cbn [gen_args] in E2.
    destruct (gen ce a (g1, scs1)) as [[g3 scs3]|] eqn:E3; [|discriminate]. cbn [Base.bind] in E2. injection E2 as -> ->.
    inversion Ha as [|? ? Ha1 _]; subst. cbn [forallb] in Hoa, Hsp. rewrite andb_true_r in Hoa, Hsp.
    destruct (Ha1 Hoa _ _ _ _ _ _ _ _ Hst1 (gs_rep _ _ _ _ _ _ _ _ _ _ _ _ _ R1) E3) as (d3 & c3 & tl3 & R3).
    pose proof (gs_st _ _ _ _ _ _ _ _ _ _ _ _ _ R3 Hst1) as Hst3.
    pose proof (gs_blk _ _ _ _ _ _ _ _ _ _ _ _ _ R3) as B3. rewrite Hb in B3. destruct B3 as (-> & b3 & bo3 & -> & B3).
    pose proof (gs_rep _ _ _ _ _ _ _ _ _ _ _ _ _ R3) as Hr3.
    pose proof (lastb_cons _ _ _ _ _ _ _ Hr3) as L0. cbn [o_bc fst snd] in L0.

    assert (Ei : inline_andor ce b (g2, scs2) = Ok (Some (g', scs'))).
    { apply Es. intros E. apply andor_some in E. cbn [fst] in E. unfold last_one_of in E. congruence. }
    destruct (andor_ok _ _ _ _ _ _ _ _ _ _ _ _ Hst3 Hr3 B3 Hsp Ei) as (c & I1 & (q & I2) & I3 & I6).
    eapply inl_gen; [exact I1|exact (gs_code _ _ _ _ _ _ _ _ _ _ _ _ _ R1)|..]; auto.
    + eapply scs_le_trans; [apply R1|apply R3].
    + destruct (gs_lits _ _ _ _ _ _ _ _ _ _ _ _ _ R1) as (x & Hx). destruct (gs_lits _ _ _ _ _ _ _ _ _ _ _ _ _ R3) as (y & Hy).
      exists (x ++ y). rewrite Hy, Hx, app_assoc. auto.
    + destruct (gs_typ _ _ _ _ _ _ _ _ _ _ _ _ _ R1) as (p & Hp). destruct (typ_else (if b then OnTrue else OnFalse) c [IOp (OLit (som_bool b))] q 1 0 I2 eq_refl) as (q' & T). rewrite typ_app, Hp. cbn [hseq]. rewrite T. eauto.
    + intros S X μ Hμ n st s. rewrite exec_app, (gs_sem _ _ _ _ _ _ _ _ _ _ _ _ _ R1) by auto. rewrite eval_send, Ef. cbn [eval_special].
      rewrite !bind_assoc. apply bind_ext. intros v s1. cbn [bind exec]. rewrite bind_done, exec_item_eq. cbn [pop].
      destruct (takes _ v); [reflexivity|]. apply I3; auto.
    + rewrite created_send, Ef, oblks_app. f_equal; [apply R1|]. cbn. rewrite !app_nil_r. exact I6.
Qed.
End Msg.
