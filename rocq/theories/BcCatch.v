(** The method around a block that ends with [^] is marked as catching returns. *)
From Coq Require Import ZArith Bool String Ascii List Lia.
From Verif Require Import Base LexModel ParseModel BcModel BcInterp BcSpec BcCode VmModel VmSpec.
Import ListNotations.
Open Scope nat_scope.
Open Scope list_scope.

(** The same contexts, catching at least as much. *)
Definition cm (a b : list scope) : Prop :=
  Forall2 (fun x y => sc_catch x = true -> sc_catch y = true) a b.
Lemma cm_refl a : cm a a.
Proof. induction a; constructor; auto. Qed.
Lemma cm_trans a b c : cm a b -> cm b c -> cm a c.
Proof. intros H. revert c. induction H; intros c Hc; inversion Hc; subst; constructor; auto. apply IHForall2; auto. Qed.
Fixpoint rootc (scs : list scope) : bool :=
  match scs with [] => false | [s] => sc_catch s | _ :: r => rootc r end.
Lemma cm_rootc a b : cm a b -> rootc a = true -> rootc b = true.
Proof.
  induction 1 as [|x y a b Hx H IH]; auto. inversion H; subst; cbn [rootc] in *; auto.
Qed.
Lemma cm_map f a : (forall s, sc_catch (f s) = sc_catch s) -> cm a (map f a).
Proof. intros Hf. induction a; cbn; constructor; auto. congruence. Qed.
Lemma cm_update k f a : (forall s, sc_catch (f s) = sc_catch s) -> cm a (update_nth k f a).
Proof.
  intros Hf. revert k. induction a; intros [|k]; cbn; constructor; auto; try apply cm_refl. congruence. apply IHa.
Qed.
Lemma cm_accessed k v a : cm a (mark_accessed k v a).
Proof. destruct k; cbn [mark_accessed]; [apply cm_refl|]. apply cm_update. reflexivity. Qed.
Lemma cm_self a : cm a (mark_self a).
Proof. apply cm_map. reflexivity. Qed.
Lemma cm_locals l a : cm a (mark_locals l a).
Proof.
  destruct a; cbn [mark_locals]; constructor; [|apply cm_refl]. induction l; cbn; auto.
Qed.
Lemma cm_find n a : forall r b, find_var n a = (r, b) -> cm a b.
Proof.
  induction a as [|sc a IH]; intros r b H; cbn [find_var] in H; [inversion H; apply cm_refl|].
  destruct (find_local n (sc_locals sc)) as [[? ?]|]; [inversion H; apply cm_refl|].
  destruct (find_text n (sc_args sc)); [inversion H; apply cm_refl|].
  destruct (find_var n a) as [r' b'] eqn:E. specialize (IH _ _ eq_refl).
  destruct r' as [[? ?]|]; inversion H; subst; constructor; auto.
Qed.
Lemma cm_nlr a : a <> [] -> cm a (mark_nlr_outer a) /\ rootc (mark_nlr_outer a) = true.
Proof.
  induction a as [|s a IH]; [congruence|]. intros _. destruct a as [|s2 a]; cbn [mark_nlr_outer].
  - split; [constructor; auto using cm_refl|reflexivity].
  - destruct IH as [I1 I2]; [congruence|]. split; [constructor; auto|]. cbn [mark_nlr_outer] in *.
    cbn [rootc]. destruct a; auto.
Qed.
Lemma cm_catch a b : make_catch a = Ok b -> cm a b /\ rootc b = true.
Proof.
  unfold make_catch. destruct a as [|s [|s2 r]]; try discriminate. intros H. cbn [tl] in H. injection H as <-.
  destruct (cm_nlr (s2 :: r)) as [C R]; [congruence|]. split; [constructor; auto|].
  change (rootc (set_thr s :: mark_nlr_outer (s2 :: r)) = true).
  revert R. generalize (mark_nlr_outer (s2 :: r)). intros [|x l]; [discriminate|]. auto.
Qed.

Ltac mon H := match type of H with
  | Base.bind ?a _ = Ok _ => let E := fresh "E" in let x := fresh "a" in destruct a as [x|] eqn:E; [cbn [Base.bind] in H|discriminate]
  end.
Section Catch.
Variable ce : cenv.
Definition keepc (f : ctx -> res ctx) : Prop := forall c c', f c = Ok c' -> cm (snd c) (snd c').
Lemma global_cm n c : cm (snd c) (snd (emit_push_global ce n c)).
Proof.
  destruct c as [g scs]. unfold emit_push_global. destruct (text_eqb n t_nil); [apply cm_refl|].
  destruct (text_eqb n t_true); [apply cm_refl|]. destruct (text_eqb n t_false); [apply cm_refl|].
  destruct (add_literal_if_absent _ _); cbn. destruct (ce_known ce n); [apply cm_refl|apply cm_self].
Qed.
Lemma inline_bc_cm bs ls locals i b : keepc (inline_bc ce bs ls locals i b).
Proof.
  intros [g scs] c' H. unfold inline_bc in H.
  destruct b; try discriminate; repeat mon H;
    repeat match type of H with
    | Base.bind ?a _ = Ok _ => mon H
    | match ?x with _ => _ end = Ok _ => destruct x eqn:?; try discriminate
    end;
    try (injection H as <-); cbn [snd]; try apply cm_refl; try apply cm_locals.
  - apply (global_cm _ (g, scs)).
Qed.
Lemma inline_loop_cm fuel bs ls locals : forall i jumps back todo, keepc (inline_loop fuel ce bs ls locals i jumps back todo).
Proof.
  induction fuel as [|fuel IH]; intros i jumps back todo c c' H; cbn [inline_loop] in H; [discriminate|].
  destruct (length bs <=? i); [destruct jumps; [injection H as <-; apply cm_refl|discriminate]|].
  destruct c as [g scs]. mon H. destruct a as [back' todo']. mon H. destruct a as [jumps' g']. mon H. rename a into b.
  destruct (forward_effect b).
  - mon H. mon H. destruct (emit_dummy b z g') as [idx g2]. apply IH in H. exact H.
  - assert (D : forall c, (c <- inline_bc ce bs ls locals i b (g', scs) ;;
      inline_loop fuel ce bs ls locals (i + blen b) jumps' back' todo' c) = Ok c -> cm scs (snd c)).
    { intros d Hd. mon Hd. apply IH in Hd. apply inline_bc_cm in E2. eapply cm_trans; eauto. }
    destruct b; try (apply D; exact H); (destruct todo' as [|[a bg] todo']; [discriminate|]); (destruct (a =? i); [|discriminate]);
      mon H; apply IH in H; exact H.
Qed.
Lemma inline_method_cm m : keepc (inline_method ce m).
Proof.
  intros [g scs] c' H. unfold inline_method in H. destruct (me_triv m) as [[]|].
  - injection H as <-. apply cm_refl.
  - injection H as <-. apply (global_cm _ (g, scs)).
  - injection H as <-. apply cm_refl.
  - discriminate.
  - mon H. apply inline_loop_cm in H. cbn [snd] in *. eapply cm_trans; [|exact H].
    unfold merge_into_scope in E. destruct (me_nargs m =? 1); [|discriminate]. destruct scs as [|sc scs]; [discriminate|].
    mon E. injection E as <-. constructor; [auto|apply cm_refl].
Qed.
Definition keepo (f : ctx -> res (option ctx)) : Prop := forall c c', f c = Ok (Some c') -> cm (snd c) (snd c').
Lemma then_cm k : keepo (inline_then_branch ce k).
Proof.
  intros [g scs] c' H. unfold inline_then_branch in H. destruct (negb _); [discriminate|]. mon H. mon H.
  destruct (emit_jump_on k false a0) as [skip g2]. mon H. mon H. destruct a2 as [g3 scs3]. mon H. injection H as <-.
  apply inline_method_cm in E2. exact E2.
Qed.
Lemma else_cm k : keepo (inline_then_else ce k).
Proof.
  intros [g scs] c' H. unfold inline_then_else in H. destruct (negb _); [discriminate|]. mon H. destruct a as [[m1 m2] g1].
  destruct (emit_jump_on k true g1) as [skip g2]. mon H. destruct a as [g3 scs3]. destruct (emit_dummy B_jump 0 g3) as [s2 g4].
  mon H. mon H. destruct a0 as [g5 scs5]. mon H. injection H as <-.
  apply inline_method_cm in E0, E2. cbn [snd] in *. eapply cm_trans; eauto.
Qed.
Lemma while_cm k : keepo (inline_while ce k).
Proof.
  intros [g scs] c' H. unfold inline_while in H. destruct (negb _); [discriminate|]. mon H. destruct a as [[m1 m2] g1].
  mon H. destruct a as [g3 scs3]. destruct (emit_jump_on _ true g3) as [s2 g4].
  mon H. destruct a as [g5 scs5]. mon H. mon H. mon H. injection H as <-.
  apply inline_method_cm in E0, E1. cbn [snd] in *. eapply cm_trans; eauto.
Qed.
Lemma andor_cm k : keepo (inline_andor ce k).
Proof.
  intros [g scs] c' H. unfold inline_andor in H. destruct (negb _); [discriminate|]. mon H. mon H.
  destruct (emit_jump_on _ true a0) as [skip g2]. mon H. mon H. destruct a2 as [g3 scs3].
  destruct (emit_dummy B_jump 0 (with_inl false g3)) as [s2 g4]. mon H. mon H. injection H as <-.
  apply inline_method_cm in E2. exact E2.
Qed.
Lemma message_cm sup sel : keepc (gen_message ce sup sel).
Proof.
  intros c c' H. unfold gen_message in H. destruct sup; [injection H as <-; apply cm_refl|]. mon H.
  assert (T : forall x, a = Some x -> cm (snd c) (snd x)).
  { intros x ->. destruct (special_of sel) as [[]|]; cbn [try_inline] in E; [apply then_cm in E|apply else_cm in E|apply while_cm in E|apply andor_cm in E|discriminate]; exact E. }
  destruct a; injection H as <-; [auto|apply cm_refl].
Qed.
Lemma push_cm n : keepc (gen_push_variable ce n).
Proof.
  intros [g scs] c' H. unfold gen_push_variable in H. destruct (find_var n scs) as [r scs1] eqn:E. apply cm_find in E.
  destruct r as [[k f]|]; [injection H as <-; eapply cm_trans; [exact E|apply cm_accessed]|].
  destruct (find_text n (ce_fields ce)); [destruct (add_literal_if_absent (LS n) g)|]; injection H as <-;
    (eapply cm_trans; [exact E|]); [apply cm_self|].
  apply (global_cm _ (g, scs1)).
Qed.
Lemma pop_cm n : keepc (gen_pop_variable ce n).
Proof.
  intros [g scs] c' H. unfold gen_pop_variable in H. destruct (find_var n scs) as [r scs1] eqn:E. apply cm_find in E.
  destruct r as [[k f]|]; [injection H as <-; eapply cm_trans; [exact E|apply cm_accessed]|].
  destruct (find_text n (ce_fields ce)); [|discriminate]. mon H. injection H as <-. eapply cm_trans; [exact E|apply cm_self].
Qed.
Lemma pops_cm vs : keepc (gen_pop_variables ce vs).
Proof.
  induction vs as [|v vs IH]; intros c c' H; cbn [gen_pop_variables] in H; [injection H as <-; apply cm_refl|].
  mon H. apply IH in H. apply pop_cm in E. eapply cm_trans; eauto.
Qed.
Lemma slit_ind' (P : slit -> Prop) (Hl : forall l, P (SL l)) (Ha : forall ls, Forall P ls -> P (SA ls)) : forall l, P l.
Proof.
  fix IH 1. intros [l|ls]; [apply Hl|]. apply Ha. induction ls; constructor; auto.
Qed.
Lemma lit_cm l : keepc (gen_lit ce l).
Proof.
  induction l as [l|ls IH] using slit_ind'; intros c c' H; cbn [gen_lit] in H; [injection H as <-; apply cm_refl|].
  destruct c as [g scs]. mon H. destruct a as [idx g1].
  destruct (emit_push_global ce t_array (g1, scs)) as [g2 scs2] eqn:Eg. mon H. destruct a as [g3 scs3]. mon H. injection H as <-.
  assert (C0 : cm scs scs2).
  { pose proof (global_cm t_array (g1, scs)) as C. rewrite Eg in C. exact C. }
  eapply cm_trans; [exact C0|]. cbn [snd].
  change scs2 with (snd (emit_send t_new (emit2 B_push_constant idx 1 g2), scs2)). change scs3 with (snd (g3, scs3)).
  clear E1 C0 Eg E. revert E0. generalize (emit_send t_new (emit2 B_push_constant idx 1 g2), scs2) (g3, scs3) 1.
  induction IH as [|l ls Hl _ IH]; intros c c' i H; [injection H as <-; apply cm_refl|].
  mon H. apply IH in H. apply Hl in E. cbn [snd] in *. eapply cm_trans; eauto.
Qed.

(** The statements of a block. *)
Definition body_of (ret : option src) (period : bool) :=
  fix go (ss : list src) (c : ctx) : res ctx :=
    match ss with
    | [] =>
        match ret with
        | Some e => c <- gen ce e c ;; finish_return c
        | None => finish_block c
        end
    | e :: ss' =>
        c <- gen ce e c ;;
        match ss', ret with
        | [], None =>
            if period then
              g <- emit_pop (fst c) ;; g <- remove_last_pop g ;;
              finish_block (g, snd c)
            else finish_block c
        | _, _ => g <- emit_pop (fst c) ;; go ss' (g, snd c)
        end
    end.
Lemma gen_block_eq label ps ls ss ret period g scs : gen ce (SBlk label ps ls ss ret period) (g, scs) =
  (sc <- new_scope (t_block_self :: ps) ls ;;
   c <- body_of ret period ss (mg_new (g_peep g), sc :: scs) ;;
   m <- assemble label c ;;
   match snd c with
   | sc :: scs => Ok (emit_push_block m (requires_context sc) g, scs)
   | [] => Err AttributeError
   end).
Proof. reflexivity. Qed.
Lemma finish_cm : keepc finish_block.
Proof. intros [g scs] c' H. unfold finish_block in H. mon H. injection H as <-. apply cm_refl. Qed.
Lemma finish_return_cm c c' : finish_return c = Ok c' -> cm (snd c) (snd c') /\ rootc (snd c') = true.
Proof. destruct c as [g scs]. unfold finish_return. intros H. mon H. injection H as <-. apply cm_catch; auto. Qed.

Definition catching (e : src) : Prop := forall c c', snd c <> [] -> gen ce e c = Ok c' ->
  cm (snd c) (snd c') /\ (rets e = true -> rootc (snd c') = true).
Lemma cm_ne a b : cm a b -> a <> [] -> b <> [].
Proof. intros H. inversion H; congruence. Qed.
Lemma body_catching ret period : (match ret with Some e => catching e | None => True end) ->
  forall ss, Forall catching ss -> forall c c', snd c <> [] -> body_of ret period ss c = Ok c' ->
  cm (snd c) (snd c') /\ (existsb rets ss || match ret with Some e => true | None => false end = true -> rootc (snd c') = true).
Proof.
  intros Hret ss Hss. induction Hss as [|e ss He Hss IH]; intros c c' Hn H; cbn [body_of] in H.
  - destruct ret as [e|]; cbn [existsb orb].
    + mon H. apply Hret in E; auto. destruct E as [E _]. apply finish_return_cm in H. destruct H as [H1 H2].
      split; auto. eapply cm_trans; eauto.
    + apply finish_cm in H. split; auto. discriminate.
  - mon H. apply He in E; auto. destruct E as [E1 E2]. pose proof (cm_ne _ _ E1 Hn) as Hn'.
    assert (D : (g <- emit_pop (fst a) ;; body_of ret period ss (g, snd a)) = Ok c' ->
      cm (snd c) (snd c') /\ (existsb rets (e :: ss) || match ret with Some e => true | None => false end = true -> rootc (snd c') = true)).
    { intros Hd. mon Hd. destruct (IH (a0, snd a) c' Hn' Hd) as [I1 I2]. cbn [snd] in I1. split; [eapply cm_trans; eauto|]. cbn [existsb].
      destruct (rets e); cbn [orb]; [|exact I2]. intros _. eapply cm_rootc; [exact I1|]. auto. }
    destruct ss as [|e2 ss]; [|exact (D H)]. destruct ret as [r|]; [exact (D H)|]. clear D.
    assert (F : exists g, finish_block (g, snd a) = Ok c').
    { destruct period; [mon H; mon H; eauto|]. destruct a; eauto. }
    destruct F as [g F]. apply finish_cm in F. cbn [snd] in F. split; [eapply cm_trans; eauto|].
    cbn [existsb]. rewrite !orb_false_r. intros Hr. eapply cm_rootc; eauto.
Qed.
Lemma args_catching l : Forall catching l -> forall c c', snd c <> [] ->
  (fix go (l : list src) (c : ctx) : res ctx :=
     match l with [] => Ok c | a :: l => c <- gen ce a c ;; go l c end) l c = Ok c' ->
  cm (snd c) (snd c') /\ (existsb rets l = true -> rootc (snd c') = true).
Proof.
  induction 1 as [|e l He _ IH]; intros c c' Hn H; [injection H as <-; split; [apply cm_refl|discriminate]|].
  mon H. apply He in E; auto. destruct E as [E1 E2]. destruct (IH a c' (cm_ne _ _ E1 Hn) H) as [I1 I2].
  split; [eapply cm_trans; eauto|]. cbn [existsb]. destruct (rets e); cbn [orb]; auto. intros _. eapply cm_rootc; eauto.
Qed.
Lemma gen_catching e : catching e.
Proof.
  induction e as [n|l|sup r sel args IHr IHa|e IH|e IH|vs e IH|label ps ls ss ret per IHs IHr] using src_ind';
    intros c c' Hn H; cbn [rets].
  - split; [|discriminate]. apply push_cm in H. exact H.
  - split; [|discriminate]. apply lit_cm in H. exact H.
  - cbn [gen] in H. mon H. apply IHr in E; auto. destruct E as [E1 E2]. mon H.
    destruct (args_catching args IHa _ _ (cm_ne _ _ E1 Hn) E) as [A1 A2]. apply message_cm in H.
    split; [eapply cm_trans; [exact E1|eapply cm_trans; eauto]|]. intros Hr. eapply cm_rootc; [exact H|].
    apply orb_true_iff in Hr. destruct Hr; auto. eapply cm_rootc; eauto.
  - cbn [gen] in H. mon H. injection H as <-. apply (IH _ _ Hn E).
  - cbn [gen] in H. mon H. injection H as <-. apply (IH _ _ Hn E).
  - cbn [gen] in H. destruct c as [g scs]. mon H. apply IH in E; auto. destruct E as [E1 E2]. apply pops_cm in H. cbn [snd] in *.
    split; [eapply cm_trans; eauto|]. intros. eapply cm_rootc; eauto.
  - destruct c as [g scs]. rewrite gen_block_eq in H. mon H. mon H. mon H. destruct a0 as [g1 [|sc scs1]]; cbn [snd] in H; [discriminate|].
    injection H as <-. cbn [snd] in *.
    assert (Hret : match ret with Some e => catching e | None => True end) by (destruct ret; auto).
    apply (body_catching ret per Hret ss IHs) in E0; [|discriminate]. cbn [snd] in E0. destruct E0 as [B1 B2].
    inversion B1; subst. split; auto. intros Hr. specialize (B2 Hr).
    match goal with h : Forall2 _ scs scs1 |- _ => pose proof (cm_ne _ _ h Hn) as Hn1 end.
    destruct scs1; [congruence|]. exact B2.
Qed.
Lemma method_catching ss ret period : forall c c', snd c <> [] -> gen_method_body ce ss ret period c = Ok c' ->
  cm (snd c) (snd c') /\ (existsb rets ss || match ret with Some e => rets e | None => false end = true -> rootc (snd c') = true).
Proof.
  induction ss as [|e ss IH]; intros c c' Hn H; cbn [gen_method_body] in H.
  - assert (D : match ret with Some e => (exists c1, gen ce e c = Ok c1 /\ snd c' = snd c1) \/ (snd c' = snd c /\ rets e = false) | None => snd c' = snd c end).
    { destruct ret as [e|].
      - destruct e; try (left; mon H; mon H; injection H as <-; eexists; split; reflexivity).
        destruct (text_eqb n t_self); [right; mon H; injection H as <-; auto|left].
        mon H. mon H. injection H as <-. eauto.
      - mon H. injection H as <-. auto. }
    destruct ret as [e|]; cbn [existsb orb].
    + destruct D as [(c1 & Hc & ->)|[-> ->]]; [apply gen_catching; auto|]. split; [apply cm_refl|discriminate].
    + rewrite D. split; [apply cm_refl|discriminate].
  - mon H. apply gen_catching in E; auto. destruct E as [E1 E2]. pose proof (cm_ne _ _ E1 Hn) as Hn'.
    assert (D : (g <- emit_pop (fst a) ;; gen_method_body ce ss ret period (g, snd a)) = Ok c' ->
      cm (snd c) (snd c') /\ (existsb rets (e :: ss) || match ret with Some e => rets e | None => false end = true -> rootc (snd c') = true)).
    { intros Hd. mon Hd. destruct (IH (a0, snd a) c' Hn' Hd) as [I1 I2]. cbn [snd] in I1. split; [eapply cm_trans; eauto|]. cbn [existsb].
      destruct (rets e); cbn [orb]; [|exact I2]. intros _. eapply cm_rootc; [exact I1|]. auto. }
    destruct ss as [|e2 ss]; [|exact (D H)]. destruct ret as [r|]; [exact (D H)|]. clear D.
    assert (F : snd c' = snd a).
    { destruct period; [mon H; mon H; injection H as <-; auto|]. mon H. injection H as <-. auto. }
    rewrite F. split; auto. cbn [existsb]. rewrite !orb_false_r. auto.
Qed.
End Catch.
