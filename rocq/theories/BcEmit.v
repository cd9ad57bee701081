(** Emitting a bytecode extends the code by the operation it stands for. *)
From Coq Require Import ZArith Bool String Ascii List Lia.
From Verif Require Import Base LexModel ParseModel BcModel BcInterp BcSpec BcCode BcEval BcMono BcAdapt BcScope.
Import ListNotations.
Open Scope nat_scope.
Open Scope list_scope.

Definition keeps (F : list literal) (g : mg) (l : literal) : Prop :=
  forall i, nth_error (g_lits g) i = Some l -> nth_error F i = Some l.
Lemma keeps_refl g l : keeps (g_lits g) g l.
Proof. intros i; auto. Qed.
(** The estimate of the depth is at least what the operation does to it. *)
Definition eff_ok (o : op) (e : Z) : Prop :=
  forall h h', op_ht o h = Some h' -> (Z.of_nat h' <= Z.of_nat h + e)%Z.

Section Emit.
Variable fields : list text.
Notation enc_op := (enc_op fields).
Notation enc := (enc fields).

Record emits (C : cx) (F : list literal) (A : allow) (g g' : mg) (o : op) (b : bc) (bo : list nat) : Prop := {
  em_enc : enc_op C F A o b bo;
  em_bytes : g_bytes g' = g_bytes g ++ bo;
  em_lits : exists l, g_lits g' = g_lits g ++ l;
  em_last : g_last g' = b :: firstn 3 (g_last g);
  em_inl : g_inl g' = g_inl g;
  em_loops : g_loops g' = g_loops g;
  em_max : (g_max g <= g_max g')%Z /\ (g_cur g' <= g_max g')%Z;
  em_typ : forall h h', op_ht o h = Some h' -> (Z.of_nat h <= g_cur g)%Z -> (Z.of_nat h' <= g_cur g')%Z }.

Lemma emits1 C F A g o b e : enc_op C F A o b [num b] -> eff_ok o e ->
  emits C F A g (emit1 b e g) o b [num b].
Proof.
  intros H He. split; simpl; auto; try lia.
  - exists []. rewrite app_nil_r; auto.
  - intros h h' E1 E2. specialize (He _ _ E1). lia.
Qed.
Lemma emits2 C F A g o b i e : enc_op C F A o b [num b; i] -> eff_ok o e ->
  emits C F A g (emit2 b i e g) o b [num b; i].
Proof.
  intros H He. split; simpl; auto; try lia.
  - rewrite <- app_assoc. reflexivity.
  - exists []. rewrite app_nil_r; auto.
  - intros h h' E1 E2. specialize (He _ _ E1). lia.
Qed.
Lemma emits3 C F A g o b i k e : enc_op C F A o b [num b; i; k] -> eff_ok o e ->
  emits C F A g (emit3 b i k e g) o b [num b; i; k].
Proof.
  intros H He. split; simpl; auto; try lia.
  - rewrite <- !app_assoc. reflexivity.
  - exists []. rewrite app_nil_r; auto.
  - intros h h' E1 E2. specialize (He _ _ E1). lia.
Qed.
(** With a literal in front. *)
Lemma emits_lits C F A g l g' o b bo : emits C F A (with_lits (g_lits g ++ l) g) g' o b bo ->
  emits C F A g g' o b bo.
Proof.
  intros [H1 H2 (x & H3) H4 H5 H6 H7 H8]. split; auto. exists (l ++ x). rewrite H3. simpl.
  rewrite app_assoc. auto.
Qed.
Lemma same_lit_eq a b : same_lit a b = true -> a = b.
Proof.
  destruct a as [v|t|m], b as [w|t'|m']; simpl; try discriminate.
  - destruct v; try discriminate; destruct w; try discriminate; auto.
  - destruct v; discriminate.
  - destruct v; discriminate.
  - intros H. apply text_eqb_eq in H. congruence.
Qed.
Lemma find_lit_nth l ls i : find_lit l ls = Some i -> nth_error ls i = Some l.
Proof.
  revert i. induction ls as [|x ls IH]; simpl; intros i; [discriminate|].
  destruct (same_lit l x) eqn:E.
  - intros H. inversion H; subst. apply same_lit_eq in E. subst; auto.
  - destruct (find_lit l ls); [|discriminate]. simpl. intros H. inversion H; subst. simpl. auto.
Qed.
Lemma absent_spec l g i g' : add_literal_if_absent l g = (i, g') ->
  exists x, g' = with_lits (g_lits g ++ x) g /\ nth_error (g_lits g') i = Some l.
Proof.
  unfold add_literal_if_absent. destruct (find_lit l (g_lits g)) eqn:E; intros H; inversion H; subst.
  - exists []. rewrite app_nil_r. destruct g'; split; auto. apply find_lit_nth; auto.
  - exists [l]. split; auto. simpl. rewrite nth_error_app2, Nat.sub_diag by lia. reflexivity.
Qed.
Lemma eff1 v : eff_ok (OLit v) 1. Proof. intros h h' H; simpl in H; inversion H; lia. Qed.
Ltac eff := intros h h' Hop; unfold op_ht in Hop;
  repeat match type of Hop with (if ?a <=? ?b then _ else _) = _ => destruct (a <=? b) eqn:?; [|discriminate] end;
  repeat match goal with H : (_ <=? _) = true |- _ => apply Nat.leb_le in H end;
  inversion Hop; subst; try lia.
Lemma emits_const C F A g l v : lit_value l = Some v -> keeps F (emit_push_constant l g) l ->
  exists b bo, emits C F A g (emit_push_constant l g) (OLit v) b bo /\ is_one_of b PUSH_CONST = true.
Proof.
  intros Hv Hk.
  assert (G : forall i g', add_literal_if_absent l g = (i, g') ->
     let g2 := match i with 0 => emit1 B_push_constant_0 1 g' | 1 => emit1 B_push_constant_1 1 g'
               | 2 => emit1 B_push_constant_2 1 g' | _ => emit2 B_push_constant i 1 g' end in
     keeps F g2 l -> exists b bo, emits C F A g g2 (OLit v) b bo /\ is_one_of b PUSH_CONST = true).
  { intros i g' E g2 K. destruct (absent_spec _ _ _ _ E) as (x & -> & Hn). 
    assert (HF : nth_error F i = Some l).
    { apply K. unfold g2. destruct i as [|[|[|i]]]; exact Hn. }
    unfold g2. destruct i as [|[|[|i]]]; do 2 eexists; (split; [eapply emits_lits, emits1; [econstructor; eauto|apply eff1]
      || (eapply emits_lits, emits2; [econstructor; eauto|apply eff1])|reflexivity]). }
  unfold emit_push_constant in *.
  destruct l as [v0|t|m]; [|destruct (add_literal_if_absent (LS t) g) as [i g'] eqn:E; apply G; auto|discriminate].
  simpl in Hv. inversion Hv; subst v0. clear Hv.
  destruct v as [| | |z|z|f|s|s|n];
    try (destruct (add_literal_if_absent _ g) as [i g'] eqn:E; apply (G i g'); auto; fail).
  - do 2 eexists. split; [apply emits1; [constructor|apply eff1]|reflexivity].
  - destruct z as [|[p|p|]|p];
      try (destruct (add_literal_if_absent _ g) as [i g'] eqn:E; apply (G i g'); auto; fail).
    + do 2 eexists. split; [apply emits1; [constructor|apply eff1]|reflexivity].
    + do 2 eexists. split; [apply emits1; [constructor|apply eff1]|reflexivity].
Qed.
Lemma nargs_pos t : 1 <= nargs t.
Proof. unfold nargs. destruct (forallb _ _); lia. Qed.
Lemma emits_send C F A g t : keeps F (emit_send t g) (LS t) ->
  exists bo, emits C F A g (emit_send t g) (OSend t) (send_bc (nargs t)) bo.
Proof.
  unfold emit_send. destruct (add_literal_if_absent (LS t) g) as [i g'] eqn:E. intros K.
  destruct (absent_spec _ _ _ _ E) as (x & -> & Hn).
  eexists. eapply emits_lits, emits2. { constructor. apply K. exact Hn. }
  unfold send_effect. pose proof (nargs_pos t). eff.
Qed.
Lemma emits_super C F A g t : keeps F (emit_super_send t g) (LS t) ->
  exists bo, emits C F A g (emit_super_send t g) (OSuper t) B_super_send bo.
Proof.
  unfold emit_super_send. destruct (add_literal_if_absent (LS t) g) as [i g'] eqn:E. intros K.
  destruct (absent_spec _ _ _ _ E) as (x & -> & Hn).
  eexists. eapply emits_lits, emits2. { constructor. apply K. exact Hn. }
  unfold send_effect. pose proof (nargs_pos t). eff.
Qed.
(** What pushing a global that is not a field or variable does. *)
Definition glob_op (t : text) : op :=
  if text_eqb t t_nil then OLit VNil else if text_eqb t t_true then OLit VTrue
  else if text_eqb t t_false then OLit VFalse else OGlob t.
Lemma emits_global ce C F A g scs t g' scs' : emit_push_global ce t (g, scs) = (g', scs') ->
  (forall l, l = LS t \/ l = LV VTrue \/ l = LV VFalse -> keeps F g' l) ->
  (exists b bo, emits C F A g g' (glob_op t) b bo /\
    (if plain_global t then b = B_push_global else is_one_of b PUSH_CONST = true)) /\
  (scs' = scs \/ scs' = mark_self scs).
Proof.
  unfold emit_push_global, glob_op, plain_global. intros E K.
  destruct (text_eqb t t_nil) eqn:En; [injection E as <- <-; split; auto|].
  { do 2 eexists. split; [apply emits1; [constructor|apply eff1]|reflexivity]. }
  destruct (text_eqb t t_true) eqn:Et; [injection E as <- <-; split; auto|].
  { apply (emits_const C F A g (LV VTrue) VTrue); auto. }
  destruct (text_eqb t t_false) eqn:Ef; [injection E as <- <-; split; auto|].
  { apply (emits_const C F A g (LV VFalse) VFalse); auto. }
  destruct (add_literal_if_absent (LS t) g) as [i g1] eqn:E1. injection E as <- <-.
  destruct (absent_spec _ _ _ _ E1) as (x & -> & Hn). split; [|destruct (ce_known ce t); auto].
  do 2 eexists. split; [|reflexivity]. eapply emits_lits, emits2; [constructor|eff].
  - apply (K (LS t)); auto.
  - unfold plain_global. rewrite En, Et, Ef. reflexivity.
Qed.
Lemma emits_fld C F (A : allow) g f c : (c <> 0 -> A c AFld) ->
  exists b bo, emits C F A g (emit_push_field_with_index f c c g) (OFld c f) b bo /\
    is_one_of b PUSH_FIELD = true /\ (c <> 0 -> b = B_push_field).
Proof.
  intros HA. unfold emit_push_field_with_index.
  destruct c as [|c]; [destruct f as [|[|f]]|]; do 2 eexists;
    (split; [first [apply emits1; [constructor|eff] | apply emits3; [constructor; auto|eff]]
            |split; [reflexivity|congruence]]).
Qed.
Lemma emits_setfld C F (A : allow) g f c : (c <> 0 -> A c AFld) ->
  exists b bo, emits C F A g (emit_pop_field_with_index f c g) (OSetFld c f) b bo /\
    is_one_of b POP_FIELD = true /\ (c <> 0 -> b = B_pop_field).
Proof.
  intros HA. unfold emit_pop_field_with_index.
  destruct c as [|c]; [destruct f as [|[|f]]|]; do 2 eexists;
    (split; [first [apply emits1; [constructor|eff] | apply emits3; [constructor; auto|eff]]
            |split; [reflexivity|congruence]]).
Qed.
Lemma emits_block C F (A : allow) g m flag b rho : keeps F (emit_push_block m flag g) (LM m) ->
  map lv_args rho = map snd C -> impl fields C (if flag then A else none) rho b m ->
  exists bo, emits C F A g (emit_push_block m flag g) (OBlk b rho)
    (if flag then B_push_block else B_push_block_no_ctx) bo.
Proof.
  unfold emit_push_block. destruct (add_literal_if_absent (LM m) g) as [i g'] eqn:E. intros K Ha Hi.
  destruct (absent_spec _ _ _ _ E) as (x & -> & Hn).
  assert (HF : nth_error F i = Some (LM m)) by (apply K; exact Hn).
  destruct flag; eexists; eapply emits_lits, emits2; try eff; econstructor; eauto.
Qed.
Lemma emits_loc C F (A : allow) g k i d : cslot C k i = Some d -> (k <> 0 -> A k (AVar (VLoc d))) ->
  emits C F A g (emit3 B_push_local i k 1 g) (OLoc k d) B_push_local [num B_push_local; i; k].
Proof. intros. apply emits3; [constructor; auto|eff]. Qed.
Lemma emits_setloc C F (A : allow) g k i d : cslot C k i = Some d -> (k <> 0 -> A k (AVar (VLoc d))) ->
  emits C F A g (emit3 B_pop_local i k (-1) g) (OSetLoc k d) B_pop_local [num B_pop_local; i; k].
Proof. intros. apply emits3; [constructor; auto|eff]. Qed.
Lemma emits_arg C F (A : allow) g k i : (k <> 0 -> A k (AVar (VArg i))) ->
  emits C F A g (emit3 B_push_argument i k 1 g) (OArg k i) B_push_argument [num B_push_argument; i; k].
Proof. intros. apply emits3; [constructor; auto|eff]. Qed.
Lemma emits_setarg C F (A : allow) g k i e : (k <> 0 -> A k (AVar (VArg i))) -> (-1 <= e)%Z ->
  emits C F A g (emit3 B_pop_argument i k e g) (OSetArg k i) B_pop_argument [num B_pop_argument; i; k].
Proof. intros. apply emits3; [constructor; auto|eff]. Qed.
Lemma emits_dup C F (A : allow) g : emits C F A g (emit1 B_dup 1 g) ODup B_dup [num B_dup].
Proof. apply emits1; [constructor|eff]. Qed.
Lemma emits_pop C F (A : allow) g : emits C F A g (emit1 B_pop (-1) g) OPop B_pop [num B_pop].
Proof. apply emits1; [constructor|eff]. Qed.
Lemma emits_inc C F (A : allow) g : emits C F A g (emit1 B_inc 0 g) OInc B_inc [num B_inc].
Proof. apply emits1; [constructor|eff]. Qed.
Lemma emits_dec C F (A : allow) g : emits C F A g (emit1 B_dec 0 g) ODec B_dec [num B_dec].
Proof. apply emits1; [constructor|eff]. Qed.
Lemma emits_ret C F (A : allow) g : emits C F A g (emit1 B_return_local 0 g) ORet B_return_local [num B_return_local].
Proof. apply emits1; [constructor|eff]. Qed.
Lemma emits_retself C F (A : allow) g : emits C F A g (emit1 B_return_self 0 g) ORetSelf B_return_self [num B_return_self].
Proof. apply emits1; [constructor|eff]. Qed.
Lemma emits_retnl C F (A : allow) g k : k <> 0 -> A k ANlr ->
  emits C F A g (emit2 B_return_non_local k 0 g) (ORetNl k) B_return_non_local [num B_return_non_local; k].
Proof. intros. apply emits2; [constructor; auto|eff]. Qed.

(** * Pieces of code *)
Record grows (C : cx) (F : list literal) (A : allow) (g g' : mg) (c : list item) (bb : list nat) : Prop := {
  gr_bytes : g_bytes g' = g_bytes g ++ bb;
  gr_lits : exists l, g_lits g' = g_lits g ++ l;
  gr_enc : exists L P, enc C F A (length (g_bytes g)) c bb L P /\ g_loops g' = g_loops g ++ L;
  gr_inl : g_inl g' = g_inl g;
  gr_max : (g_max g <= g_max g')%Z /\ ((g_cur g <= g_max g)%Z -> (g_cur g' <= g_max g')%Z);
  gr_typ : forall h h' p, typ c h = Some (h', p) -> (Z.of_nat h <= g_cur g <= g_max g)%Z ->
           (Z.of_nat h' <= g_cur g')%Z /\ (Z.of_nat p <= g_max g')%Z }.
Lemma grows_refl C F A g : grows C F A g g [] [].
Proof.
  split; simpl; auto; try lia.
  - rewrite app_nil_r; auto.
  - exists []. rewrite app_nil_r; auto.
  - exists [], []. rewrite app_nil_r. split; auto. constructor.
  - intros h h' p E. inversion E; subst. lia.
Qed.
Lemma grows_trans C F A g g1 g2 c1 c2 b1 b2 : grows C F A g g1 c1 b1 -> grows C F A g1 g2 c2 b2 ->
  grows C F A g g2 (c1 ++ c2) (b1 ++ b2).
Proof.
  intros [A1 (x & A2) (L1 & P1 & A3 & A4) A5 A6 A7] [B1 (y & B2) (L2 & P2 & B3 & B4) B5 B6 B7]. split.
  - rewrite B1, A1, app_assoc. auto.
  - exists (x ++ y). rewrite B2, A2, app_assoc. auto.
  - exists (L1 ++ L2), (P1 ++ P2). split; [|rewrite B4, A4, app_assoc; auto].
    eapply enc_app; eauto. rewrite A1, app_length in B3. exact B3.
  - congruence.
  - split; [lia|]. intros H. apply B6. apply A6. auto.
  - intros h h' p E Hh. rewrite typ_app in E. apply hseq_some in E.
    destruct E as (h1 & p1 & r & E1 & E2 & ->). destruct (A7 _ _ _ E1 Hh) as [E3 E4].
    destruct (B7 _ _ _ E2) as [E5 E6]; [split; auto; apply A6; lia|]. lia.
Qed.
Lemma emits_grows C F A g g' o b bo : emits C F A g g' o b bo -> grows C F A g g' [IOp o] bo.
Proof.
  intros [A1 A2 A3 A4 A5 A6 A7 A8]. split; auto.
  - exists [], []. rewrite app_nil_r. split; auto. apply enc_one with (b := b); auto.
  - split; lia.
  - intros h h' p E Hh. cbn [typ] in E. rewrite typ_item_eq in E.
    destruct (op_ht o h) as [h1|] eqn:Eo; [|discriminate].
    cbn [hseq typ] in E. inversion E; subst. specialize (A8 _ _ Eo (proj1 Hh)). lia.
Qed.
Lemma grows_mono C F A g g' c bb C' F' A' : grows C F A g g' c bb -> cx_le C C' -> lits_le F F' -> allow_le A A' ->
  grows C' F' A' g g' c bb.
Proof.
  intros [A1 A2 (L & P & A3 & A4) A5 A6 A7] H1 H2 H3. split; auto. exists L, P. split; auto.
  eapply enc_mono; eauto.
Qed.
Lemma lits_le_ex l l' : (exists x, l' = l ++ x) -> lits_le l l'.
Proof. intros (x & ->). apply lits_le_app. Qed.
End Emit.
