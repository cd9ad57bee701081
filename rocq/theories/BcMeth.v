(** Whole methods: the bytes of a compiled method do what the source of the method means. *)
From Coq Require Import ZArith Bool String Ascii List Lia.
From Verif Require Import Base LexModel ParseModel BcModel BcInterp BcSpec BcCode BcSim BcEval BcMono BcAdapt BcScope BcEmit BcInl BcRep BcGen BcExpr BcMsg BcBlk.
Import ListNotations.
Open Scope nat_scope.
Open Scope list_scope.

Section Meth.
Variable ce : cenv.
Notation fields := (ce_fields ce).
Notation rep := (rep fields).
Notation fin_rep := (fin_rep fields).
Notation gen_res := (gen_res ce).
Notation gen_ok := (gen_ok ce).

(** With an empty operand stack there is nothing the peephole could take back. *)
Lemma no_opt scs g c0 tl b g' : rep scs g c0 tl 0 -> optimize_dup_pop_pop g = Ok (b, g') ->
  b = false /\ g' = g.
Proof.
  intros Hr H. pose proof (dup_pop_pop _ _ _ _ _ _ _ _ Hr H) as Hp. destruct b; [exfalso|auto].
  unfold optimize_dup_pop_pop in H. destruct (peep_off g) eqn:Hi; [discriminate|].
  unfold last_is, last_one_of in H. destruct (is (lastb 0 g) B_inc_field_push) eqn:E0.
  - apply is_eq in E0. destruct (last_split _ _ _ _ _ _ Hr) as (x & tl1 & -> & Ex); [congruence|].
    pose proof (r_tl _ _ _ _ _ _ Hr) as Ht. inversion Ht as [|? ? Hx Ht']; subst.
    destruct (incfldpush_op _ _ _ _ _ _ _ Hx) as (k & i & Eo & Eb & _); [congruence|].
    destruct (rep_cut _ _ _ _ _ _ _ Hr) as (h1 & bs1 & T1 & _). rewrite Eo in T1. cbn [op_ht] in T1. discriminate.
  - destruct (is_one_of (lastb 0 g) POP_X) eqn:E1; [|discriminate]. cbn [negb] in H.
    destruct (is (lastb 1 g) B_dup) eqn:E2; [|discriminate]. cbn [negb] in H.
    destruct (last_split _ _ _ _ _ _ Hr) as (x & tl1 & -> & Ex); [intros E; rewrite E in E1; discriminate|].
    apply is_eq in E2. destruct (last_split2 _ _ _ _ _ _ _ Hr) as (y & tl2 & -> & Ey); [congruence|].
    pose proof (r_tl _ _ _ _ _ _ Hr) as Ht. inversion Ht as [|? ? Hx Ht']; subst. inversion Ht' as [|? ? Hy _]; subst.
    destruct (dup_op _ _ _ _ _ _ _ Hy) as [Eo Eb]; [congruence|].
    destruct (r_typ _ _ _ _ _ _ Hr) as (q & Q1 & _). rewrite code_cons in Q1.
    apply typ_split in Q1. destruct Q1 as (h2 & p2 & r2 & Q1 & Q3 & ->).
    apply typ_op, set_ht in Q3; [|eapply popx_op; eauto; congruence]. subst h2.
    rewrite code_cons in Q1. apply typ_split in Q1. destruct Q1 as (h2 & p3 & r3 & Q1 & Q4 & ->).
    apply typ_op in Q4. rewrite Eo in Q4. unfold op_ht in Q4. destruct (1 <=? h2) eqn:El; [|discriminate].
    apply Nat.leb_le in El. inversion Q4. lia.
Qed.

Lemma emits_retself C F A g : emits fields C F A g (emit1 B_return_self 0 g) ORetSelf B_return_self [num B_return_self].
Proof. apply emits1; [constructor|]. intros a a' Ha. cbn [op_ht] in Ha. inversion Ha. lia. Qed.

(** The end of a method without [^]: what is left of the last value does not matter. *)
Lemma return_self_end scs g c0 tl g' : rep scs g c0 tl 0 -> emit_return_self g = Ok g' ->
  fin_rep scs g' (code c0 tl ++ [IOp ORetSelf]) 0.
Proof.
  intros Hr H. unfold emit_return_self in H. destruct (optimize_dup_pop_pop g) as [[b g1]|] eqn:E; [|discriminate].
  cbn [Base.bind snd] in H. destruct (no_opt _ _ _ _ _ _ Hr E) as [-> ->]. injection H as <-.
  eapply fin_emit; [apply base_fin, rep_base, Hr|apply emits_retself|apply scs_le_refl|reflexivity|auto].
Qed.
Lemma return_self_value scs g c0 tl pref d p g' : rep scs g c0 tl 1 -> code c0 tl = pref ++ d ->
  typ d 0 = Some (1, p) -> emit_return_self g = Ok g' ->
  exists d' h', fin_rep scs g' (pref ++ d') h' /\
    (forall S X (μ : machine S X) n st s, exec μ d' n st s = exec μ (d ++ [IOp ORetSelf]) n st s \/
      exec μ d' n st s = exec μ (d ++ [IOp OPop; IOp ORetSelf]) n st s) /\
    same_blks d' d.
Proof.
  intros Hr Hc Hd H. unfold emit_return_self in H. destruct (optimize_dup_pop_pop g) as [[b g1]|] eqn:E; [|discriminate].
  cbn [Base.bind snd] in H. pose proof (dup_pop_pop _ _ _ _ _ _ _ _ Hr E) as Hp. injection H as <-. destruct b.
  - destruct (popped_rep _ _ _ _ _ _ _ _ _ _ Hr Hc Hd Hp) as (d' & c1 & tl1 & P1 & P2 & P3 & P4 & P5 & P6).
    exists (d' ++ [IOp ORetSelf]), 0. split; [|split].
    + rewrite app_assoc, <- P1.
      eapply fin_emit; [apply base_fin, rep_base, P2|apply emits_retself|apply scs_le_refl|reflexivity|auto].
    + intros S X μ n st s. right. change [IOp OPop; IOp ORetSelf] with ([IOp OPop] ++ [IOp ORetSelf]).
      rewrite app_assoc, exec_app, P4. symmetry. apply exec_app.
    + unfold same_blks. rewrite oblks_app. cbn. rewrite app_nil_r. exact P6.
  - subst g1. exists (d ++ [IOp ORetSelf]), 1. split; [|split; [auto|apply blks_self; reflexivity]].
    rewrite app_assoc, <- Hc.
    eapply fin_emit; [apply base_fin, rep_base, Hr|apply emits_retself|apply scs_le_refl|reflexivity|auto].
Qed.

Definition self_arg (rho : env) : Prop := resolve t_self rho = Some (0, VArg 0).

Lemma method_ok ret period rho : self_arg rho -> match ret with Some e => ok_src e | None => true end = true ->
  forall ss, forallb ok_src ss = true ->
  forall scs g c0 tl g' scs', st_ok scs rho -> rep scs g c0 tl 0 ->
  gen_method_body ce ss ret period (g, scs) = Ok (g', scs') ->
  exists body h, fin_rep scs' g' (code c0 tl ++ body) h /\ scs_le scs scs' /\
    computes body (fun S X μ n s => eval_method fields ss ret μ rho n s) /\
    oblks body = created_body ss ret rho.
Proof.
  intros Hself Hokr ss. induction ss as [|e ss IH]; intros Hok scs g c0 tl g' scs' Hst Hr H.
  - assert (Hs : ret = None \/ ret = Some (SVar t_self) -> (g1 <- emit_return_self g ;; Ok (g1, scs)) = Ok (g', scs') ->
      exists body h, fin_rep scs' g' (code c0 tl ++ body) h /\ scs_le scs scs' /\
        computes body (fun S X μ n s => eval_method fields [] ret μ rho n s) /\ oblks body = created_body [] ret rho).
    { intros Hret H'. destruct (emit_return_self g) as [g1|] eqn:E; [|discriminate]. cbn [Base.bind] in H'. injection H' as <- <-.
      exists [IOp ORetSelf], 0. split; [eapply return_self_end; eauto|]. split; [apply scs_le_refl|]. split; [|destruct Hret as [-> | ->]; reflexivity].
      intros S X μ Hμ n st s. rewrite exec_op1. cbn [exec_op eval_method].
      destruct Hret as [-> | ->].
      - rewrite bind_assoc. apply bind_ext. reflexivity.
      - cbn [eval]. unfold read_var. rewrite Hself, bind_assoc. apply bind_ext. reflexivity. }
    assert (He : forall e, ret = Some e -> (c <- gen ce e (g, scs) ;; g1 <- emit_return_local (fst c) ;; Ok (g1, snd c)) = Ok (g', scs') ->
      exists body h, fin_rep scs' g' (code c0 tl ++ body) h /\ scs_le scs scs' /\
        computes body (fun S X μ n s => eval_method fields [] ret μ rho n s) /\ oblks body = created_body [] ret rho).
    { intros e -> H'. destruct (gen ce e (g, scs)) as [[g1 scs1]|] eqn:E; [|discriminate]. cbn [Base.bind fst snd] in H'.
      destruct (emit_return_local g1) as [g2|] eqn:E2; [|discriminate]. cbn [Base.bind] in H'. injection H' as <- <-.
      destruct (gen_all ce e Hokr _ _ _ _ _ _ _ _ Hst Hr E) as (d & c1 & tl1 & R).
      destruct (gs_typ _ _ _ _ _ _ _ _ _ _ _ _ _ R) as (p & Hp).
      destruct (return_local_root _ _ _ _ _ _ _ _ _ _ (gs_rep _ _ _ _ _ _ _ _ _ _ _ _ _ R) (gs_code _ _ _ _ _ _ _ _ _ _ _ _ _ R) Hp E2) as (d' & h' & F1 & F2 & F3).
      exists d', h'. split; auto. split; [apply R|]. split; [|rewrite F3; apply R]. intros S X μ Hμ n st s. rewrite F2, exec_app.
      rewrite (gs_sem _ _ _ _ _ _ _ _ _ _ _ _ _ R) by auto. cbn [eval_method]. rewrite !bind_assoc. apply bind_ext. intros v s1.
      cbn [bind]. rewrite exec_op1. reflexivity. }
    cbn [gen_method_body fst snd] in H. destruct ret as [e|]; [|apply Hs; auto].
    destruct e; try (eapply He; [reflexivity|exact H]).
    destruct (text_eqb n t_self) eqn:En; [|eapply He; [reflexivity|exact H]].
    apply text_eqb_eq in En. subst n. apply Hs; auto.
  - cbn [forallb] in Hok. apply andb_true_iff in Hok. destruct Hok as [Hoe Hok]. cbn [gen_method_body] in H.
    destruct (gen ce e (g, scs)) as [[g1 scs1]|] eqn:E; [|discriminate]. cbn [Base.bind fst snd] in H.
    destruct (gen_all ce e Hoe _ _ _ _ _ _ _ _ Hst Hr E) as (d & c1 & tl1 & R).
    pose proof (gs_st _ _ _ _ _ _ _ _ _ _ _ _ _ R Hst) as Hst1.
    destruct (gs_typ _ _ _ _ _ _ _ _ _ _ _ _ _ R) as (p & Hp).
    assert (Hm : (g2 <- emit_pop g1 ;; gen_method_body ce ss ret period (g2, scs1)) = Ok (g', scs') ->
      exists body h, fin_rep scs' g' (code c0 tl ++ body) h /\ scs_le scs scs' /\
        computes body (fun S X μ n s => eval_method fields (e :: ss) ret μ rho n s) /\ oblks body = (created_body (e :: ss) ret rho)).
    { intros H'. destruct (emit_pop g1) as [g2|] eqn:Ep; [|discriminate]. cbn [Base.bind] in H'.
      destruct (emit_pop_ok _ _ _ _ _ _ _ _ _ _ (gs_rep _ _ _ _ _ _ _ _ _ _ _ _ _ R) (gs_code _ _ _ _ _ _ _ _ _ _ _ _ _ R) Hp Ep) as (d' & c2 & tl2 & P1 & P2 & P3 & P4 & P5 & P6).
      destruct (IH Hok _ _ _ _ _ _ Hst1 P2 H') as (body & h & B1 & B2 & B3 & B4).
      rewrite P1, <- app_assoc in B1. exists (d' ++ body), h. split; auto. split; [eapply scs_le_trans; [apply R|auto]|].
      split; [|rewrite oblks_app; unfold created_body; cbn [flat_map]; rewrite <- app_assoc; f_equal; [rewrite P6; apply R|exact B4]].
      intros S X μ Hμ n st s. rewrite exec_app, P4, exec_app, (gs_sem _ _ _ _ _ _ _ _ _ _ _ _ _ R) by auto.
      cbn [eval_method]. rewrite !bind_assoc. apply bind_ext. intros v s1. cbn [bind]. rewrite exec_op1. cbn [exec_op pop bind]. apply B3. auto. }
    destruct ss as [|e2 ss]; [|apply Hm; exact H]. destruct ret as [r|]; [apply Hm; exact H|].
    destruct period; [apply Hm; exact H|].
    destruct (emit_return_self g1) as [g2|] eqn:E2; [|discriminate]. cbn [Base.bind] in H. injection H as <- <-.
    destruct (return_self_value _ _ _ _ _ _ _ _ (gs_rep _ _ _ _ _ _ _ _ _ _ _ _ _ R) (gs_code _ _ _ _ _ _ _ _ _ _ _ _ _ R) Hp E2) as (d' & h' & F1 & F2 & F3).
    exists d', h'. split; auto. split; [apply R|].
    split; [|unfold created_body; cbn [flat_map]; rewrite !app_nil_r; rewrite F3; apply R].
    intros S X μ Hμ n st s. cbn [eval_method].
    destruct (F2 S X μ n st s) as [-> | ->]; rewrite exec_app, (gs_sem _ _ _ _ _ _ _ _ _ _ _ _ _ R) by auto; rewrite !bind_assoc;
      apply bind_ext; intros v s1; cbn [bind].
    + rewrite exec_op1. cbn [exec_op]. rewrite bind_assoc. apply bind_ext. reflexivity.
    + simpl. rewrite !bind_assoc. apply bind_ext. reflexivity.
Qed.
End Meth.
