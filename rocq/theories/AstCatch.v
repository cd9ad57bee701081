(** The AST compiler wraps the body of each method in which a block ends with [^]. *)
From Coq Require Import ZArith Bool String Ascii List Lia.
From Verif Require Import Base LexModel ParseModel BcModel BcInterp BcSpec BcCode VmModel VmSpec BcCatch AstModel AstGen.
Import ListNotations.
Open Scope nat_scope.
Open Scope list_scope.

Ltac mon H := match type of H with
  | Base.bind ?a _ = Ok _ => let E := fresh "E" in let x := fresh "a" in destruct a as [x|] eqn:E; [cbn [Base.bind] in H|discriminate]
  end.
Section Catch.
Variable ce : cenv.
Lemma self_level_cm scs p : self_level scs = Ok p -> cm scs (snd p).
Proof.
  unfold self_level. destruct (find_var t_self scs) as [[[k f]|] scs1] eqn:E; [|discriminate]. intros H. injection H as <-.
  apply cm_find in E. eapply cm_trans; [exact E|apply cm_accessed].
Qed.
Lemma global_node_cm n scs p : global_node ce n scs = Ok p -> cm scs (snd p).
Proof.
  unfold global_node. repeat match goal with |- (if ?b then _ else _) = _ -> _ => destruct b end;
    try (intros H; injection H as <-; apply cm_refl). intros H. mon H. injection H as <-. apply cm_self.
Qed.
Lemma read_node_cm n scs p : read_node ce n scs = Ok p -> cm scs (snd p).
Proof.
  unfold read_node. destruct (find_var n scs) as [r scs1] eqn:E. apply cm_find in E. intros H. destruct r as [[k f]|].
  - eapply cm_trans; [exact E|]. destruct f; [injection H as <-; apply cm_accessed|].
    destruct (_ || _); injection H as <-; apply cm_accessed.
  - eapply cm_trans; [exact E|]. destruct (find_text n (ce_fields ce)); [|apply global_node_cm in H; exact H].
    mon H. injection H as <-. apply self_level_cm in E0. exact E0.
Qed.
Lemma write_node_cm n q p : write_node ce n q = Ok p -> cm (snd q) (snd p).
Proof.
  destruct q as [e scs]. unfold write_node. destruct (_ || _); [discriminate|]. destruct (find_var n scs) as [r scs1] eqn:E. apply cm_find in E.
  intros H. cbn [snd]. eapply cm_trans; [exact E|]. destruct r as [[k f]|]; [injection H as <-; apply cm_accessed|].
  destruct (find_text n (ce_fields ce)); [|discriminate]. mon H. injection H as <-. apply self_level_cm in E0. exact E0.
Qed.
Lemma write_nodes_cm vs : forall q p, write_nodes ce vs q = Ok p -> cm (snd q) (snd p).
Proof.
  induction vs as [|v vs IH]; intros q p H; cbn [write_nodes] in H; [injection H as <-; apply cm_refl|].
  mon H. apply IH in E. apply write_node_cm in H. eapply cm_trans; eauto.
Qed.
Lemma inline_block_cm nd scs p : inline_block ce nd scs = Ok p -> cm scs (snd p).
Proof.
  destruct nd; cbn [inline_block]; try discriminate.
  - destruct (nargs =? 1); [|discriminate]. destruct scs as [|sc scs]; [discriminate|]. intros H. mon H. mon H. injection H as <-.
    apply cm_trans with (set_locals a sc :: scs); [constructor; [auto|apply cm_refl]|apply (cm_locals (snd a0) (set_locals a sc :: scs))].
  - destruct t; try discriminate; intros H.
    + injection H as <-; apply cm_refl.
    + injection H as <-; apply cm_refl.
    + apply global_node_cm in H; exact H.
    + mon H. injection H as <-. apply self_level_cm in E. exact E.
Qed.
Lemma inline_special_cm k r args scs p : inline_special ce k r args scs = Ok (Some p) -> cm scs (snd p).
Proof.
  destruct k as [c|c|b|b]; destruct args as [|a [|a2 [|]]]; cbn [inline_special]; try discriminate.
  - destruct (is_block_node a); [|discriminate]. intros H. mon H. injection H as <-. apply inline_block_cm in E. exact E.
  - destruct (_ && _); [|discriminate]. intros H. mon H. mon H. injection H as <-. apply inline_block_cm in E, E0. eapply cm_trans; eauto.
  - destruct (_ && _); [|discriminate]. intros H. mon H. mon H. injection H as <-. apply inline_block_cm in E, E0. eapply cm_trans; eauto.
  - destruct (is_block_node a); [|discriminate]. intros H. mon H. injection H as <-. apply inline_block_cm in E. exact E.
Qed.
Lemma message_node_cm sup sel r args scs p : message_node ce sup sel r args scs = Ok p -> cm scs (snd p).
Proof.
  unfold message_node. destruct sup; [intros H; injection H as <-; apply cm_refl|]. intros H. mon H.
  destruct a as [q|].
  - injection H as <-. destruct (special_of sel); [|discriminate]. apply inline_special_cm in E. exact E.
  - destruct (text_eqb sel t_plus); [mon H|]; injection H as <-; apply cm_refl.
Qed.
Definition acatching (e : src) : Prop := forall scs p, scs <> [] -> agen ce e scs = Ok p ->
  cm scs (snd p) /\ (rets e = true -> rootc (snd p) = true).
Lemma agens_catching l : Forall acatching l -> forall scs p, scs <> [] -> agens ce l scs = Ok p ->
  cm scs (snd p) /\ (existsb rets l = true -> rootc (snd p) = true).
Proof.
  induction 1 as [|e l He _ IH]; intros scs p Hn H; cbn [agens] in H; [injection H as <-; split; [apply cm_refl|discriminate]|].
  mon H. mon H. injection H as <-. apply He in E; auto. destruct E as [E1 E2]. destruct (IH _ _ (cm_ne _ _ E1 Hn) E0) as [I1 I2].
  split; [eapply cm_trans; eauto|]. cbn [existsb snd]. destruct (rets e); cbn [orb]; auto. intros _. eapply cm_rootc; eauto.
Qed.
Lemma agen_catching e : acatching e.
Proof.
  induction e as [n|l|sup r sel args IHr IHa|e IH|e IH|vs e IH|label ps ls ss ret per IHs IHr] using src_ind';
    intros scs p Hn H; cbn [rets].
  - split; [|discriminate]. apply read_node_cm in H. exact H.
  - split; [|discriminate]. cbn [agen] in H. destruct l as [l|]; [destruct (lit_value l); [|discriminate]|]; injection H as <-; apply cm_refl.
  - cbn [agen] in H. mon H. apply IHr in E; auto. destruct E as [E1 E2]. rewrite agens_eq in H. mon H.
    destruct (agens_catching args IHa _ _ (cm_ne _ _ E1 Hn) E) as [A1 A2]. apply message_node_cm in H.
    split; [eapply cm_trans; [exact E1|eapply cm_trans; eauto]|]. intros Hr. eapply cm_rootc; [exact H|].
    apply orb_true_iff in Hr. destruct Hr; auto. eapply cm_rootc; eauto.
  - cbn [agen] in H. mon H. injection H as <-. apply (IH _ _ Hn E).
  - cbn [agen] in H. mon H. injection H as <-. apply (IH _ _ Hn E).
  - cbn [agen] in H. mon H. apply IH in E; auto. destruct E as [E1 E2]. apply write_nodes_cm in H.
    split; [eapply cm_trans; eauto|]. intros. eapply cm_rootc; eauto.
  - cbn [agen] in H. mon H. rewrite agens_eq in H. mon H.
    destruct (agens_catching ss IHs (a :: scs) _ ltac:(discriminate) E0) as [A1 A2]. mon H.
    assert (B : cm (a :: scs) (snd a1) /\ (existsb rets ss || match ret with Some _ => true | None => false end = true -> rootc (snd a1) = true)).
    { destruct ret as [e|].
      - mon E1. mon E1. injection E1 as <-. cbn [snd]. apply IHr in E2; [|apply (cm_ne _ _ A1); discriminate]. destruct E2 as [R1 R2].
        apply cm_catch in E3. destruct E3 as [C1 C2]. split; [eapply cm_trans; [exact A1|eapply cm_trans; eauto]|auto].
      - injection E1 as <-. rewrite orb_false_r. auto. }
    destruct B as [B1 B2]. destruct (snd a1) as [|sc scs1] eqn:Es; [discriminate|]. injection H as <-. cbn [snd].
    inversion B1; subst. split; auto. intros Hr. specialize (B2 Hr).
    match goal with h : Forall2 _ scs scs1 |- _ => pose proof (cm_ne _ _ h Hn) as Hn1 end.
    destruct scs1; [congruence|]. exact B2.
Qed.
Theorem compile_catches ps ls ss ret am : compile_ast ce ps ls ss ret = Ok am ->
  existsb rets ss || match ret with Some e => rets e | None => false end = true -> exists body, am = AMeth true body.
Proof.
  unfold compile_ast. intros H Hr. mon H. mon H. mon H.
  destruct (agens_catching ss ltac:(apply Forall_forall; intros; apply agen_catching) [a] _ ltac:(discriminate) E0) as [A1 A2].
  destruct (agen_catching _ _ _ (cm_ne _ _ A1 ltac:(discriminate)) E1) as [B1 B2].
  pose proof (cm_trans _ _ _ A1 B1) as C. destruct (snd a1) as [|sc rest] eqn:Es; [discriminate|]. injection H as <-.
  assert (R : rootc (sc :: rest) = true).
  { apply orb_true_iff in Hr. destruct Hr as [Hr|Hr]; [eapply cm_rootc; [exact B1|auto]|]. apply B2. destruct ret; [exact Hr|discriminate]. }
  inversion C as [|? ? ? ? C1 C2]; subst. inversion C2; subst. cbn [rootc] in R. rewrite R. cbn [assemble_ast]. eauto.
Qed.
End Catch.
