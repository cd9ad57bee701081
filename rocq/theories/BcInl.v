(** Inlining a block method copies its code, one level further out. *)
From Coq Require Import ZArith Bool String Ascii List Lia.
From Verif Require Import Base LexModel ParseModel BcModel BcInterp BcSpec BcCode BcSim BcEval BcMono BcAdapt BcScope BcEmit.
Import ListNotations.
Open Scope nat_scope.
Open Scope list_scope.

Section Inl.
Variable fields : list text.
Notation enc_op := (enc_op fields).
Notation enc := (enc fields).
Notation impl := (impl fields).
Notation emits := (emits fields).
Notation grows := (grows fields).

(** * Queues *)
Lemma enc_op_nonnil C ls A o b bo : enc_op C ls A o b bo -> bo <> [].
Proof. intros H. destruct (enc_op_head _ _ _ _ _ _ _ H) as (t & -> & _). congruence. Qed.
Lemma enc_jump_3 b off j : enc_jump b off j -> length j = 3.
Proof. intros [-> | (x & y & -> & _)]; reflexivity. Qed.
Lemma enc_nonnil C ls A i c bs L P : enc C ls A i c bs L P -> (c = [] <-> bs = []).
Proof.
  intros H. inversion H; subst.
  - split; auto.
  - split; [congruence|]. intros E. apply app_eq_nil in E. destruct E as [E _].
    apply enc_op_nonnil in H0. congruence.
  - split; [congruence|]. intros E. apply app_eq_nil in E. destruct E as [E _].
    apply enc_jump_3 in H1. subst j. discriminate.
  - split; [congruence|]. intros E. apply app_eq_nil in E. destruct E as [E _].
    apply enc_jump_3 in H1. subst j1. discriminate.
  - split; [congruence|]. intros E. apply app_eq_nil in E. destruct E as [_ E].
    apply app_eq_nil in E. destruct E as [E _].
    apply enc_jump_3 in H1. subst j1. discriminate.
Qed.
Definition within (a b : nat) (P : list (nat * nat)) : Prop := Forall (fun x => a <= fst x < b) P.
Lemma within_le a b a' b' P : within a b P -> a' <= a -> b <= b' -> within a' b' P.
Proof. intros H H1 H2. eapply Forall_impl; [|exact H]. simpl. intros; lia. Qed.
Lemma enc_within C ls A i c bs L P : enc C ls A i c bs L P -> within i (i + length bs) P.
Proof.
  intros H. induction H; unfold within in *.
  - constructor.
  - rewrite app_length. eapply Forall_impl; [|exact IHenc]. simpl. intros; lia.
  - apply enc_jump_3 in H0. rewrite !app_length. apply Forall_app. split; eapply Forall_impl; eauto; simpl; intros; lia.
  - apply enc_jump_3 in H0, H2. rewrite !app_length. repeat (apply Forall_app; split); eapply Forall_impl; eauto; simpl; intros; lia.
  - apply enc_jump_3 in H0, H2. rewrite !app_length. constructor; [simpl; lia|].
    repeat (apply Forall_app; split); eapply Forall_impl; eauto; simpl; intros; lia.
Qed.
Lemma queue_push_skip {A} a (x : A) q1 q2 : Forall (fun y => fst y < a) q1 ->
  queue_push a x (q1 ++ q2) = q1 ++ queue_push a x q2.
Proof.
  induction 1 as [|[b y] q1 H _ IH]; simpl in *; auto.
  replace (a <=? b) with false by (symmetry; apply Nat.leb_gt; auto). rewrite IH. auto.
Qed.
Lemma queue_push_front {A} a (x : A) q : Forall (fun y => a <= fst y) q -> queue_push a x q = (a, x) :: q.
Proof. intros H. inversion H as [|[b y] q' Hb _]; subst; simpl; auto. simpl in Hb. apply Nat.leb_le in Hb. rewrite Hb. auto. Qed.
Lemma queue_order C ls A i c bs L P : enc C ls A i c bs L P -> forall q1 q2,
  Forall (fun y => fst y < i) q1 -> Forall (fun y => i + length bs <= fst y) q2 ->
  fold_left (fun q l => queue_push (fst l) (snd l) q) L (q1 ++ q2) = q1 ++ P ++ q2.
Proof.
  intros H. induction H; intros q1 q2 H1' H2'; cbn [fold_left app]; auto.
  - apply IHenc; eapply Forall_impl; eauto; simpl; intros; rewrite ?app_length in *; lia.
  - apply enc_jump_3 in H0. rewrite !app_length in H2'. rewrite fold_left_app, IHenc1.
    + rewrite app_assoc, IHenc2; [rewrite !app_assoc; auto| |].
      * apply Forall_app. split; [eapply Forall_impl; eauto; simpl; intros; lia|].
        eapply Forall_impl; [|eapply enc_within; eauto]. simpl; intros; lia.
      * eapply Forall_impl; eauto; simpl; intros; lia.
    + eapply Forall_impl; eauto; simpl; intros; lia.
    + eapply Forall_impl; eauto; simpl; intros; lia.
  - apply enc_jump_3 in H0, H2. rewrite !app_length in H2'. rewrite !fold_left_app, IHenc1.
    + rewrite app_assoc, IHenc2.
      * rewrite app_assoc, IHenc3; [rewrite !app_assoc; auto| |].
        -- repeat (apply Forall_app; split); [eapply Forall_impl; eauto; simpl; intros; lia| |];
             (eapply Forall_impl; [|eapply enc_within; eauto]); simpl; intros; lia.
        -- eapply Forall_impl; eauto; simpl; intros; lia.
      * repeat (apply Forall_app; split); [eapply Forall_impl; eauto; simpl; intros; lia|].
        (eapply Forall_impl; [|eapply enc_within; eauto]); simpl; intros; lia.
      * eapply Forall_impl; eauto; simpl; intros; lia.
    + eapply Forall_impl; eauto; simpl; intros; lia.
    + eapply Forall_impl; eauto; simpl; intros; lia.
  - apply enc_jump_3 in H0, H2. rewrite !app_length in H2'. rewrite !fold_left_app, IHenc1.
    + rewrite app_assoc, IHenc2.
      * cbn [fold_left fst snd]. rewrite <- !app_assoc, queue_push_skip by auto.
        rewrite queue_push_front.
        -- rewrite app_assoc, app_comm_cons, app_assoc, IHenc3; [cbn [app]; rewrite <- !app_assoc; cbn [app]; rewrite <- ?app_assoc; auto| |].
           ++ apply Forall_app; split; [eapply Forall_impl; eauto; simpl; intros; lia|].
              constructor; [simpl; lia|]. apply Forall_app; split;
              (eapply Forall_impl; [|eapply enc_within; eauto]); simpl; intros; lia.
           ++ eapply Forall_impl; eauto; simpl; intros; lia.
        -- repeat (apply Forall_app; split); [| |eapply Forall_impl; eauto; simpl; intros; lia];
           (eapply Forall_impl; [|eapply enc_within; eauto]); simpl; intros; lia.
      * repeat (apply Forall_app; split); [eapply Forall_impl; eauto; simpl; intros; lia|].
        (eapply Forall_impl; [|eapply enc_within; eauto]); simpl; intros; lia.
      * eapply Forall_impl; eauto; simpl; intros; lia.
    + auto.
    + eapply Forall_impl; eauto; simpl; intros; lia.
Qed.
Lemma back_jumps C ls A c bs L P : enc C ls A 0 c bs L P -> back_jump_queue L = P.
Proof.
  intros H. unfold back_jump_queue. change (@nil (nat * nat)) with (@nil (nat * nat) ++ []).
  erewrite queue_order; eauto. simpl. apply app_nil_r.
Qed.

(** * Patching a jump *)
Lemma jump_num b : (exists k p, b = jump_bc k p) \/ b = B_jump ->
  is_jump (num b) = true /\ num b <? num B_jump2 = true /\ is_jump (num b + NUM_SINGLE) = true /\
  num b + NUM_SINGLE <? num B_jump2 = false.
Proof. intros [(k & p & ->) | ->]; [destruct k, p|]; repeat split; reflexivity. Qed.
Lemma patch_spec b n0 bs0 bb x y idx g g' :
  (exists k p, b = jump_bc k p) \/ b = B_jump ->
  (n0 = num b \/ n0 = num b + NUM_SINGLE) -> idx = S (length bs0) ->
  g_bytes g = bs0 ++ [n0; x; y] ++ bb -> patch_jump idx g = Ok g' ->
  exists j, g' = with_bytes (bs0 ++ j ++ bb) g /\ enc_jump b (3 + length bb) j.
Proof.
  intros Hb Hn -> Hg H. destruct (jump_num _ Hb) as (J1 & J2 & J3 & J4).
  unfold patch_jump in H. cbn [Nat.sub] in H. rewrite Nat.sub_0_r, Hg in H. cbn [app] in H.
  rewrite byte_pre in H. cbn [Base.bind] in H.
  assert (J0 : is_jump n0 = true) by (destruct Hn as [-> | ->]; auto). rewrite J0 in H. cbn [negb] in H.
  replace (length (bs0 ++ n0 :: x :: y :: bb) - length bs0) with (3 + length bb) in H
    by (rewrite app_length; simpl; lia).
  remember (3 + length bb) as n eqn:En.
  destruct (check_jump_offset n); [|discriminate]. cbn [Base.bind] in H.
  replace (S (length bs0)) with (length bs0 + 1) in H by lia.
  destruct (n <=? 255) eqn:El.
  - apply (f_equal (fun r => match r with Ok a => a | Err _ => g end)) in H. subst g'.
    rewrite set_pre1. replace (length bs0 + 1 + 1) with (length bs0 + 2) by lia. rewrite set_pre2.
    exists [n0; n; 0]. split; auto.
    destruct Hn as [-> | ->]; [left; auto|]. right. exists n, 0. split; auto.
  - set (b' := if n0 <? num B_jump2 then n0 + NUM_SINGLE else n0) in *.
    assert (Eb : b' = num b + NUM_SINGLE).
    { unfold b'. destruct Hn as [-> | ->]; [rewrite J2|rewrite J4]; auto. }
    rewrite Eb, J3 in H. cbn [negb] in H.
    apply (f_equal (fun r => match r with Ok a => a | Err _ => g end)) in H. subst g'. rewrite set_pre.
    rewrite set_pre1. replace (length bs0 + 1 + 1) with (length bs0 + 2) by lia. rewrite set_pre2.
    exists [num b + NUM_SINGLE; n mod 256; n / 256]. split; auto.
    right. eexists; eexists. split; [reflexivity|].
    rewrite (Nat.div_mod n 256) at 1 by lia. lia.
Qed.
Lemma patch_length idx g g' : patch_jump idx g = Ok g' -> length (g_bytes g') = length (g_bytes g).
Proof.
  assert (L : forall bs i n, length (set_byte bs i n) = length bs).
  { induction bs; intros [|i] n; simpl; auto. }
  unfold patch_jump. destruct (byte_at _ _); [|discriminate]. cbn [Base.bind].
  destruct (negb _); [discriminate|]. destruct (check_jump_offset _); [|discriminate]. cbn [Base.bind].
  destruct (_ <=? 255); [|destruct (negb _); [discriminate|]]; intros H; injection H as <-; simpl; rewrite ?L; auto.
Qed.

(** * The loop over the bytecodes *)
Section Loop.
Variable ce : cenv.
Variable whole : list nat.
Variable ls : list literal.
Variable lcs : list local.
Notation loop f := (inline_loop f ce whole ls lcs).

Lemma eager_patch f i idx J B T g scs R : i < length whole ->
  loop f i ((i, idx) :: J) B T (g, scs) = Ok R ->
  exists g1, patch_jump idx g = Ok g1 /\ loop f i J B T (g1, scs) = Ok R.
Proof.
  intros Hi H. destruct f as [|f]; [discriminate|]. cbn [inline_loop] in H.
  replace (length whole <=? i) with false in H by (symmetry; apply Nat.leb_gt; auto).
  destruct (prepare_back_jumps B T i (length (g_bytes g))) as [[B' T']|] eqn:Ep; [|discriminate].
  cbn [Base.bind patch_jumps] in H. rewrite Nat.leb_refl, Nat.eqb_refl in H.
  destruct (patch_jump idx g) as [g1|] eqn:Eg; [|discriminate]. exists g1. split; auto.
  cbn [Base.bind] in H. cbn [inline_loop].
  replace (length whole <=? i) with false by (symmetry; apply Nat.leb_gt; auto).
  rewrite (patch_length _ _ _ Eg), Ep. cbn [Base.bind]. exact H.
Qed.
Lemma eager_back f i b J B T g scs R : i < length whole ->
  loop f i J ((i, b) :: B) T (g, scs) = Ok R ->
  loop f i J B (queue_push b (length (g_bytes g)) T) (g, scs) = Ok R.
Proof.
  intros Hi H. destruct f as [|f]; [discriminate|]. cbn [inline_loop] in *.
  replace (length whole <=? i) with false in * by (symmetry; apply Nat.leb_gt; auto).
  cbn [prepare_back_jumps] in H. rewrite Nat.leb_refl, Nat.eqb_refl in H. exact H.
Qed.
Lemma prepare_none B T i here : Forall (fun y : nat * nat => i < fst y) B -> prepare_back_jumps B T i here = Ok (B, T).
Proof.
  intros H. inversion H as [|[a b] B' Ha _]; subst; simpl; auto. simpl in Ha.
  replace (a <=? i) with false by (symmetry; apply Nat.leb_gt; auto). auto.
Qed.
Lemma patch_none J i g : Forall (fun y : nat * nat => i < fst y) J -> patch_jumps i J g = Ok (J, g).
Proof.
  intros H. inversion H as [|[a b] B' Ha _]; subst; simpl; auto. simpl in Ha.
  replace (a <=? i) with false by (symmetry; apply Nat.leb_gt; auto). auto.
Qed.
(** One bytecode with nothing to patch before it. *)
Lemma loop_op f pre b t post J B T g scs R : whole = pre ++ (num b :: t) ++ post ->
  Forall (fun y => length pre < fst y) J -> Forall (fun y => length pre < fst y) B ->
  forward_effect b = None -> b <> B_jump_backward -> b <> B_jump2_backward ->
  loop f (length pre) J B T (g, scs) = Ok R ->
  exists f' c, inline_bc ce whole ls lcs (length pre) b (g, scs) = Ok c /\
    loop f' (length pre + blen b) J B T c = Ok R.
Proof.
  intros Hw HJ HB Hf H1 H2 H. destruct f as [|f]; [discriminate|]. cbn [inline_loop] in H.
  replace (length whole <=? length pre) with false in H
    by (symmetry; apply Nat.leb_gt; rewrite Hw, !app_length; simpl; lia).
  rewrite prepare_none in H by auto. cbn [Base.bind] in H. rewrite patch_none in H by auto. cbn [Base.bind] in H.
  replace (get_bc whole (length pre)) with (@Ok bc b) in H by (rewrite Hw; symmetry; apply get_bc_pre).
  cbn [Base.bind] in H. rewrite Hf in H.
  destruct (inline_bc ce whole ls lcs (length pre) b (g, scs)) as [c|] eqn:E.
  - exists f, c. split; auto. destruct b; try congruence; exact H.
  - exfalso. destruct b; try congruence; discriminate.
Qed.
Lemma loop_forward f pre b x y post J B T g scs R e : whole = pre ++ [num b; x; y] ++ post ->
  Forall (fun y => length pre < fst y) J -> Forall (fun y => length pre < fst y) B ->
  forward_effect b = Some e ->
  loop f (length pre) J B T (g, scs) = Ok R ->
  exists f', loop f' (length pre + 3) (queue_push (length pre + (x + y * 256)) (S (length (g_bytes g))) J) B T
    (emit3 b 0 0 e g, scs) = Ok R.
Proof.
  intros Hw HJ HB Hf H. destruct f as [|f]; [discriminate|]. cbn [inline_loop] in H.
  replace (length whole <=? length pre) with false in H
    by (symmetry; apply Nat.leb_gt; rewrite Hw, !app_length; simpl; lia).
  rewrite prepare_none in H by auto. cbn [Base.bind] in H. rewrite patch_none in H by auto. cbn [Base.bind] in H.
  replace (get_bc whole (length pre)) with (@Ok bc b) in H by (rewrite Hw; symmetry; apply get_bc_pre).
  replace (byte_at whole (length pre + 1)) with (@Ok nat x) in H by (rewrite Hw; symmetry; apply byte_pre1).
  replace (byte_at whole (length pre + 2)) with (@Ok nat y) in H by (rewrite Hw; symmetry; apply byte_pre2).
  cbn [Base.bind] in H. rewrite Hf in H. cbn [emit_dummy] in H.
  replace (blen b) with 3 in H by (destruct b; try discriminate; reflexivity).
  exists f. exact H.
Qed.
Lemma loop_backward f pre b x y post J B T g scs R begin : whole = pre ++ [num b; x; y] ++ post ->
  Forall (fun y => length pre < fst y) J -> Forall (fun y => length pre < fst y) B ->
  b = B_jump_backward \/ b = B_jump2_backward ->
  loop f (length pre) J B ((length pre, begin) :: T) (g, scs) = Ok R ->
  exists f' g', emit_backwards_jump begin g = Ok g' /\ loop f' (length pre + 3) J B T (g', scs) = Ok R.
Proof.
  intros Hw HJ HB Hf H. destruct f as [|f]; [discriminate|]. cbn [inline_loop] in H.
  replace (length whole <=? length pre) with false in H
    by (symmetry; apply Nat.leb_gt; rewrite Hw, !app_length; simpl; lia).
  rewrite prepare_none in H by auto. cbn [Base.bind] in H. rewrite patch_none in H by auto. cbn [Base.bind] in H.
  replace (get_bc whole (length pre)) with (@Ok bc b) in H by (rewrite Hw; symmetry; apply get_bc_pre).
  destruct (emit_backwards_jump begin g) as [g'|] eqn:E.
  - exists f, g'. split; auto.
    destruct Hf as [-> | ->]; cbn [Base.bind forward_effect] in H; rewrite Nat.eqb_refl in H; exact H.
  - exfalso. destruct Hf as [-> | ->]; cbn [Base.bind forward_effect] in H; rewrite Nat.eqb_refl in H; discriminate.
Qed.
End Loop.

(** * One operation *)
Ltac eff := intros h h' Hop; unfold op_ht in Hop;
  repeat match type of Hop with (if ?a <=? ?b then _ else _) = _ => destruct (a <=? b) eqn:?; [|discriminate] end;
  repeat match goal with H : (_ <=? _) = true |- _ => apply Nat.leb_le in H end;
  inversion Hop; subst; try lia.
Record inl_ctx (C0 : cx) (A : allow) (scs : list scope) : Prop := {
  ic_ne : scs <> [];
  ic_cx : cx_le C0 (cx_of scs);
  ic_A : allow_le A (A_of scs);
  ic_outs : outs_ok scs }.
Lemma inl_ctx_le C0 A scs scs' : inl_ctx C0 A scs -> scs_le scs scs' -> outs_ok scs' -> inl_ctx C0 A scs'.
Proof.
  intros [H1 H2 H3 H4] Hle Ho. split; auto.
  - intros ->. inversion Hle. subst. auto.
  - eapply cx_le_trans; eauto using cx_of_le.
  - eapply allow_le_trans; eauto using A_of_le.
Qed.
Lemma mark_locals_head marks scs : head_locals (mark_locals marks scs) = head_locals scs.
Proof. destruct scs as [|sc scs]; auto. simpl. induction marks; simpl; auto. Qed.
Lemma head_cx scs : scs <> [] -> nth_error (map fst (cx_of scs)) 0 = Some (map snd (head_locals scs)).
Proof. destruct scs; [congruence|reflexivity]. Qed.
Lemma head_slot scs i d : scs <> [] -> nth_error (map snd (head_locals scs)) i = Some d -> cslot (cx_of scs) 0 i = Some d.
Proof. destruct scs; [congruence|]. intros _ H. unfold cslot, slot. simpl. exact H. Qed.
Lemma A_of_head marks sc scs d : In d marks -> A_of (mark_locals marks (sc :: scs)) 0 (AVar (VLoc d)).
Proof.
  intros H. destruct (mark_locals_in marks sc scs d H) as (sc' & -> & Hi). split; [intros; lia|].
  exists sc'. split; auto.
Qed.
Lemma pos_pred k : k <> 0 -> exists k', k = S k'.
Proof. destruct k; [congruence|eauto]. Qed.

(** * Growing by a control structure *)
Definition fwd (b : bc) : Prop := (exists k p, b = jump_bc k p) \/ b = B_jump.
Lemma enc_jump_parts b off j : enc_jump b off j -> fwd b ->
  exists b' x y e, j = [num b'; x; y] /\ off = x + y * 256 /\
    (num b' = num b \/ num b' = num b + NUM_SINGLE) /\ forward_effect b' = Some e /\ (-1 <= e)%Z.
Proof.
  intros [-> | (x & y & -> & ->)] H.
  - exists b, off, 0. destruct H as [(k & p & ->) | ->]; [destruct k, p|]; eexists; cbn [jump_bc forward_effect]; repeat (split; [reflexivity || lia || auto|]); lia.
  - destruct H as [(k & p & ->) | ->]; [destruct k, p|];
    match goal with |- context [num ?b + NUM_SINGLE] =>
      let n := eval compute in (num b + NUM_SINGLE) in
      match eval compute in (of_num n) with
      | Some ?c => exists c, x, y; eexists; split; [reflexivity|split; [reflexivity|split; [right; reflexivity|split; [reflexivity|lia]]]] end end.
Qed.
Section Grow.
Variables (C : cx) (F : list literal) (A : allow).
Notation emit_jump b e g := (emit3 b 0 0 e g).
Lemma grows_then g g2 k c b e bb j : (-1 <= e)%Z ->
  grows C F A (emit_jump b e g) g2 c bb -> enc_jump (jump_bc k false) (3 + length bb) j ->
  grows C F A g (with_bytes (g_bytes g ++ j ++ bb) g2) [IThen k c] (j ++ bb).
Proof.
  intros He [H1 H2 (L & P & H3 & H4) H5 H6 H7] Hj. constructor; cycle 5.
  { intros h h' p E Hh. cbn [typ] in E. rewrite typ_item_eq in E.
    destruct (1 <=? h) eqn:E1; [|discriminate]. apply Nat.leb_le in E1.
    apply hseq_some in E. destruct E as (a & q & r & E & E2 & ->). apply heq_some in E.
    destruct E as (p' & E & E3). inversion E3; subst. cbn [typ] in E2. inversion E2; subst. clear E2. simpl in *.
    apply H7 in E; lia. }
  all: simpl in *; auto.
  - exists (L ++ []), (P ++ []). split; [|rewrite app_nil_r; auto].
    rewrite <- (app_nil_r bb). econstructor; eauto.
    + replace (length (g_bytes g) + 3) with (length (((g_bytes g ++ [num b]) ++ [0]) ++ [0])) by (rewrite !app_length; simpl; lia). exact H3.
    + constructor.
  - split; lia.
Qed.
Lemma grows_else g g2 g2' g4 k c1 c2 b1 e1 b2 e2 bb1 bb2 j1 j2 : (-1 <= e1)%Z -> (-1 <= e2)%Z ->
  grows C F A (emit_jump b1 e1 g) g2 c1 bb1 ->
  enc_jump (jump_bc k true) (3 + length bb1 + 3) j1 ->
  g2' = with_bytes (g_bytes g ++ j1 ++ bb1 ++ [num b2; 0; 0]) (emit_jump b2 e2 g2) ->
  grows C F A g2' g4 c2 bb2 ->
  enc_jump B_jump (3 + length bb2) j2 -> bb2 <> [] ->
  grows C F A g (with_bytes (g_bytes g ++ j1 ++ bb1 ++ j2 ++ bb2) g4) [IElse k c1 c2] (j1 ++ bb1 ++ j2 ++ bb2).
Proof.
  intros He1 He2 [H1 (l1 & H2) (L1 & P1 & H3 & H4) H5 H6 H7] Hj1 -> [G1 (l2 & G2) (L2 & P2 & G3 & G4) G5 G6 G7] Hj2 Hnn.
  pose proof (enc_jump_3 _ _ _ Hj1) as J3.
  constructor; cycle 5.
  { intros h h' p E Hh. cbn [typ] in E. rewrite typ_item_eq in E.
    destruct (1 <=? h) eqn:E1; [|discriminate]. apply Nat.leb_le in E1.
    apply hseq_some in E. destruct E as (a & q & r & E & E2 & ->). apply heq_some in E.
    destruct E as (p' & E & E3). apply heq_some in E3. destruct E3 as (q' & E3 & E4). inversion E4; subst.
    cbn [typ] in E2. inversion E2; subst. clear E2. simpl in *.
    apply H7 in E; [|lia]. apply G7 in E3; lia. }
  all: simpl in *; auto.
  - exists (l1 ++ l2). rewrite G2, H2, app_assoc. auto.
  - exists (L1 ++ L2 ++ []), (P1 ++ P2 ++ []). split; [|rewrite G4, H4, app_nil_r, app_assoc; auto].
    rewrite <- (app_nil_r bb2). econstructor; eauto.
    + replace (length (g_bytes g) + 3) with (length (((g_bytes g ++ [num b1]) ++ [0]) ++ [0])) by (rewrite !app_length; simpl; lia). exact H3.
    + match goal with |- context [BcCode.enc _ _ _ _ ?n] => replace n with (length (g_bytes g ++ j1 ++ bb1 ++ [num b2; 0; 0])) by (rewrite !app_length; simpl; lia) end. exact G3.
    + constructor.
  - congruence.
  - split; [lia|]. intros. apply G6. lia.
Qed.
Lemma grows_loop g g1 g2 g4 k t b b1 e1 b2 e2 bt bb j1 j2 : (-1 <= e1)%Z -> (0 <= e2)%Z ->
  grows C F A g g1 t bt ->
  grows C F A (emit_jump b1 e1 g1) g2 b bb ->
  enc_jump (jump_bc k true) (3 + length bb + 3) j1 ->
  enc_jump B_jump_backward (length bt + 3 + length bb) j2 ->
  g4 = with_bytes (g_bytes g ++ bt ++ j1 ++ bb ++ j2)
        (with_loops (g_loops g2 ++ [(length (g_bytes g), length (g_bytes g2))]) (emit_jump b2 e2 g2)) ->
  grows C F A g g4 [ILoop k t b] (bt ++ j1 ++ bb ++ j2).
Proof.
  intros He1 He2 [H1 (l1 & H2) (L1 & P1 & H3 & H4) H5 H6 H7] [G1 (l2 & G2) (L2 & P2 & G3 & G4) G5 G6 G7] Hj1 Hj2 ->.
  pose proof (enc_jump_3 _ _ _ Hj1) as J3.
  constructor; cycle 5.
  { intros h h' p E Hh. cbn [typ] in E. rewrite typ_item_eq in E.
    apply hseq_some in E. destruct E as (a & q & r & E & E2 & ->). apply heq_some in E.
    destruct E as (p' & E & E3). apply heq_some in E3. destruct E3 as (q' & E3 & E4). inversion E4; subst.
    cbn [typ] in E2. inversion E2; subst. clear E2. simpl in *.
    apply H7 in E; [|lia]. apply G7 in E3; lia. }
  all: simpl in *; auto.
  - exists (l1 ++ l2). rewrite G2, H2, app_assoc. auto.
  - exists (L1 ++ L2 ++ [(length (g_bytes g), length (g_bytes g2))]), ((length (g_bytes g), length (g_bytes g2)) :: P1 ++ P2 ++ []).
    split; [|rewrite G4, H4, !app_assoc; auto].
    replace (length (g_bytes g2)) with (length (g_bytes g) + length bt + 3 + length bb)
      by (rewrite G1, H1, !app_length; simpl; lia).
    rewrite <- (app_nil_r j2). econstructor; eauto.
    + match goal with |- context [BcCode.enc _ _ _ _ ?n] => replace n with (length (((g_bytes g1 ++ [num b1]) ++ [0]) ++ [0])) by (rewrite H1, !app_length; simpl; lia) end. exact G3.
    + constructor.
  - congruence.
  - split; [lia|]. intros. lia.
Qed.
End Grow.

Section Op.
Variable ce : cenv.
Variable whole : list nat.
Variable ls : list literal.
Variable lcs : list local.
Variables (C0 : cx) (A : allow) (out : acc -> Prop).
Hypothesis Hout : out_ok 1 out.
Hypothesis HA : rooted A C0.
Notation Cb := ((map snd lcs, [t_block_self]) :: C0).
Notation Ab := (nest A out).

Lemma low0 k : low 0 k = k - 1.
Proof. unfold low. destruct k; reflexivity. Qed.
Lemma low0S k : low 0 (S k) = k.
Proof. rewrite low0. lia. Qed.
Lemma no_arg0 i : ~ out (AVar (VArg i)).
Proof. intros H. destruct (Hout _ H) as (v & E & Hv). inversion E; subst. lia. Qed.

Lemma inline_op o b bo pre post g scs g' scs' :
  enc_op Cb ls Ab o b bo -> op_noret o = true -> whole = pre ++ bo ++ post ->
  inline_bc ce whole ls lcs (length pre) b (g, scs) = Ok (g', scs') ->
  inl_ctx C0 A scs -> g_inl g = true ->
  (exists b' bo', emits (cx_of scs') (g_lits g') (A_of scs') g g' (low_op 0 o) b' bo') /\
  scs_le scs scs' /\ outs_ok scs'.
Proof.
  intros He Hn Hw H Hc Hi.
  assert (B1 : forall x y t, whole = pre ++ x :: y :: t -> byte_at whole (length pre + 1) = Ok y)
    by (intros x y t ->; apply byte_pre1).
  assert (B2 : forall x y z t, whole = pre ++ x :: y :: z :: t -> byte_at whole (length pre + 2) = Ok z)
    by (intros x y z t ->; apply byte_pre2).
  assert (Same : (g' , scs') = (g', scs) -> scs_le scs scs' /\ outs_ok scs').
  { intros E. injection E as ->. split; [apply scs_le_refl|apply Hc]. }
  destruct Hc as [Hne Hcx HAs Ho].
  assert (Hmx : forall k, A k AFld -> k = max_ctx scs).
  { intros k Hk. apply HAs in Hk. pose proof (rooted_A _ _ _ Hk (or_introl eq_refl)) as E. rewrite cx_of_length in E. unfold max_ctx. lia. }
  assert (Hsym : forall i t, nth_error ls i = Some (LS t) -> get_sym ls i = Ok t).
  { intros i t E. unfold get_sym, get_lit. rewrite E. reflexivity. }
  change (id (whole = pre ++ bo ++ post)) in Hw.
  inversion He; subst; cbn [op_noret] in Hn; try discriminate; unfold id in Hw; cbn [app] in Hw;
    cbn [inline_bc low_op] in *;
    try (erewrite B1 in H by exact Hw); try (erewrite B2 in H by exact Hw); cbn [Base.bind] in H;
    try discriminate;
    (* constants *)
    try (unfold get_lit in H; rewrite H0 in H; cbn [Base.bind] in H;
         injection H as Eg Es; subst scs'; split; [|apply Same; auto];
         destruct (emits_const fields (cx_of scs) (g_lits g') (A_of scs) g l v H1) as (b' & bo' & E & _);
         [subst g'; apply keeps_refl|rewrite Eg in E; eauto]; fail);
    (* one byte *)
    try (injection H as <- <-; split; [|apply Same; auto]; do 2 eexists;
         apply emits1; [constructor|eff]; fail);
    (* symbols *)
    try (rewrite (Hsym _ _ H0) in H; cbn [Base.bind] in H).
  - (* push_local *) destruct k as [|k].
    + destruct (get_source lcs i) as [x|] eqn:Ex; [|discriminate]. cbn [Base.bind] in H.
      destruct (inlined_local_idx x (head_locals scs)) as [j|] eqn:Ej; [|discriminate]. cbn [Base.bind] in H.
      apply get_source_nth in Ex. apply inlined_idx_nth in Ej.
      assert (x = d) by (unfold cslot, slot in H0; simpl in H0; congruence). subst x.
      injection H as <- <-. split; [|apply Same; auto]. do 2 eexists. apply emits_loc.
      * apply head_slot; auto.
      * unfold low. simpl. congruence.
    + injection H as <- <-. split; [|apply Same; auto]. do 2 eexists. rewrite low0S. apply emits_loc.
      * apply Hcx. exact H0.
      * intros _. apply HAs. apply (H1 (Nat.neq_succ_0 k)).
  - (* pop_local *) destruct k as [|k].
    + destruct (get_source lcs i) as [x|] eqn:Ex; [|discriminate]. cbn [Base.bind] in H.
      destruct (inlined_local_idx x (head_locals scs)) as [j|] eqn:Ej; [|discriminate]. cbn [Base.bind] in H.
      apply get_source_nth in Ex. apply inlined_idx_nth in Ej.
      assert (x = d) by (unfold cslot, slot in H0; simpl in H0; congruence). subst x.
      injection H as <- <-. split; [|apply Same; auto]. do 2 eexists. apply emits_setloc.
      * apply head_slot; auto.
      * unfold low. simpl. congruence.
    + injection H as <- <-. split; [|apply Same; auto]. do 2 eexists. rewrite low0S. apply emits_setloc.
      * apply Hcx. exact H0.
      * intros _. apply HAs. apply (H1 (Nat.neq_succ_0 k)).
  - destruct k as [|k]; [discriminate|]. cbn [pred_ctx Base.bind] in H.
    injection H as <- <-. split; [|apply Same; auto]. do 2 eexists. rewrite low0S. apply emits_arg.
    intros _. apply HAs. apply (H0 (Nat.neq_succ_0 k)).
  - destruct k as [|k]; [discriminate|]. cbn [pred_ctx Base.bind] in H.
    injection H as <- <-. split; [|apply Same; auto]. do 2 eexists. rewrite low0S. apply emits_setarg; [|lia].
    intros _. apply HAs. apply (H0 (Nat.neq_succ_0 k)).
  - destruct k as [|k]; [discriminate|]. cbn [pred_ctx Base.bind] in H.
    specialize (H0 (Nat.neq_succ_0 k)). cbn [nest] in H0. rewrite <- (Hmx _ H0) in H.
    injection H as <- <-. split; [|apply Same; auto]. rewrite low0S.
    destruct (emits_fld fields (cx_of scs) (g_lits (emit_push_field_with_index i k k g)) (A_of scs) g i k)
      as (b' & bo' & E & _); eauto.
  - destruct k as [|k]; [discriminate|]. cbn [pred_ctx Base.bind] in H.
    specialize (H0 (Nat.neq_succ_0 k)). cbn [nest] in H0.
    injection H as <- <-. split; [|apply Same; auto]. rewrite low0S.
    destruct (emits_setfld fields (cx_of scs) (g_lits (emit_pop_field_with_index i k g)) (A_of scs) g i k)
      as (b' & bo' & E & _); eauto.
  - destruct k as [|k]; [discriminate|]. cbn [pred_ctx Base.bind] in H.
    specialize (H0 (Nat.neq_succ_0 k)). cbn [nest] in H0.
    injection H as <- <-. split; [|apply Same; auto]. rewrite low0S. do 2 eexists.
    apply emits3; [constructor; auto|eff].
  - destruct k as [|k]; [discriminate|]. cbn [pred_ctx Base.bind] in H.
    specialize (H0 (Nat.neq_succ_0 k)). cbn [nest] in H0.
    injection H as <- <-. split; [|apply Same; auto]. rewrite low0S. do 2 eexists.
    apply emits3; [constructor; auto|eff].
  - (* global *) assert (E : emit_push_global ce t (g, scs) = (g', scs')) by congruence.
    destruct (emits_global fields ce (cx_of scs') (g_lits g') (A_of scs') _ _ _ _ _ E) as [(b' & bo' & E1 & _) E2].
    { intros l _. apply keeps_refl. }
    assert (Eo : glob_op t = OGlob t).
    { unfold glob_op, plain_global in *. destruct (text_eqb t t_nil), (text_eqb t t_true), (text_eqb t t_false); auto; discriminate. }
    rewrite Eo in E1. split; [eauto|].
    destruct E2 as [-> | ->]; [apply Same; auto|]. split; [apply mark_self_le|apply outs_ok_mark_self; auto].
  - (* block *) unfold get_meth, get_lit in H. rewrite H0 in H. cbn [Base.bind] in H.
    destruct (adapt 1 lcs (head_locals scs) m) as [[m' marks]|] eqn:Ea; [|discriminate]. cbn [Base.bind fst snd] in H.
    injection H as Eg Es. subst scs'.
    assert (Hm : mrg 0 Cb (cx_of (mark_locals marks scs))).
    { split; [|split; [reflexivity|]].
      - destruct Hcx as [E _]. apply (f_equal (@length _)) in E. rewrite !map_length, cx_of_length in E. simpl.
        destruct scs; [congruence|simpl in E; lia].
      - destruct Hcx as [E _]. destruct (cx_of_le _ _ (mark_locals_le marks scs)) as [E' _].
        cbn [map snd drop_at]. congruence. }
    assert (Hcx' : cx_le C0 (cx_of (mark_locals marks scs))) by (eapply cx_le_trans; [exact Hcx|apply cx_of_le, mark_locals_le]).
    split; [|split; [apply mark_locals_le|apply outs_ok_mark_locals; auto]].
    destruct (emits_block fields (cx_of (mark_locals marks scs)) (g_lits g') (A_of (mark_locals marks scs)) g m' true b0 (merge 0 rho)) as (bo' & E).
    + rewrite Eg. apply keeps_refl.
    + eapply mrg_args; eauto.
    + eapply adapt_impl; eauto. split; auto.
      * rewrite <- (mark_locals_head marks scs). apply head_cx. destruct scs; [congruence|]. discriminate.
      * intros k Hk. lia.
      * intros k i0 d Hk E. destruct k; [lia|]. simpl. rewrite Nat.sub_0_r. apply Hcx'. exact E.
      * eapply rooted_nest; eauto.
      * intros v Hv. destruct v; eauto. exfalso. eapply no_arg0; eauto.
      * intros k a Hk. lia.
      * intros k a Hk Ha. destruct k; [lia|]. simpl. rewrite Nat.sub_0_r.
        eapply A_of_le; [apply mark_locals_le|]. apply HAs. exact Ha.
      * intros d Hd _. destruct scs; [congruence|]. apply A_of_head. auto.
    + rewrite Eg in E. eauto.
  - (* block without context *) unfold get_meth, get_lit in H. rewrite H0 in H. cbn [Base.bind] in H.
    injection H as Eg Es. subst scs'.
    assert (Hm : mrg 0 Cb (cx_of scs)).
    { split; [|split; [reflexivity|]].
      - destruct Hcx as [E _]. apply (f_equal (@length _)) in E. rewrite !map_length, cx_of_length in E. simpl.
        destruct scs; [congruence|simpl in E; lia].
      - destruct Hcx as [E _]. cbn [map snd drop_at]. congruence. }
    split; [|apply Same; auto].
    destruct (emits_block fields (cx_of scs) (g_lits g') (A_of scs) g m false b0 (merge 0 rho)) as (bo' & E).
    + rewrite Eg. apply keeps_refl.
    + eapply mrg_args; eauto.
    + eapply closed_impl; eauto. intros k Hk. lia.
    + rewrite Eg in E. eauto.
  - (* send *) assert (E : g' = emit_send t g /\ scs' = scs).
    { destruct (nargs t) as [|[|[|[|]]]]; cbn [send_bc] in H; inversion H; auto. }
    destruct E as [Eg ->]. split; [|apply Same; auto].
    destruct (emits_send fields (cx_of scs) (g_lits g') (A_of scs) g t) as (bo' & E).
    + rewrite Eg. apply keeps_refl.
    + rewrite <- Eg in E. eauto.
  - injection H as Eg Es. subst scs'. split; [|apply Same; auto].
    destruct (emits_super fields (cx_of scs) (g_lits g') (A_of scs) g t) as (bo' & E).
    + rewrite Eg. apply keeps_refl.
    + rewrite Eg in E. eauto.
  - (* return *) destruct k as [|k]; [congruence|]. cbn [nest Nat.sub] in *. rewrite Nat.sub_0_r in *.
    destruct k as [|k].
    + unfold emit_return_local, optimize_return_field, peep_off in H. rewrite Hi in H. cbn [orb] in H. cbn [Base.bind fst snd] in H.
      injection H as <- <-. split; [|apply Same; auto]. do 2 eexists. apply emits_ret.
    + destruct (S k =? max_ctx scs); [|discriminate]. injection H as <- <-. split; [|apply Same; auto].
      do 2 eexists. apply emits_retnl; auto.
Qed.

Lemma op_not_jump C l A1 o b bo : enc_op C l A1 o b bo ->
  forward_effect b = None /\ b <> B_jump_backward /\ b <> B_jump2_backward.
Proof.
  intros H. inversion H; subst; try (repeat split; (reflexivity || discriminate)).
  destruct (nargs t) as [|[|[|[|]]]]; repeat split; (reflexivity || discriminate).
Qed.
Notation loop f := (inline_loop f ce whole ls lcs).
Notation from n := (Forall (fun y : nat * nat => n <= fst y)).
Lemma from_le n m q : from m q -> n <= m -> from n q.
Proof. intros H Hl. eapply Forall_impl; [|exact H]. simpl. intros; lia. Qed.
Lemma from_lt n m (q : list (nat * nat)) : from m q -> n < m -> Forall (fun y => n < fst y) q.
Proof. intros H Hl. eapply Forall_impl; [|exact H]. simpl. intros; lia. Qed.
Lemma within_from a b P : within a b P -> from a P.
Proof. intros H. eapply Forall_impl; [|exact H]. simpl. intros; lia. Qed.
Lemma from_app n p q : from n p -> from n q -> from n (p ++ q).
Proof. intros. apply Forall_app. auto. Qed.
Lemma low_nonnil C F A1 i c bb L P C2 F2 A2 i2 bs2 L2 P2 : enc C F A1 i (low_code 0 c) bb L P ->
  enc C2 F2 A2 i2 c bs2 L2 P2 -> bs2 <> [] -> bb <> [].
Proof.
  intros H1 H2 Hn E. apply enc_nonnil in H1, H2. apply H1 in E. apply Hn, H2.
  destruct c; auto. discriminate.
Qed.
Lemma jump2_num : num B_jump_backward + NUM_SINGLE = num B_jump2_backward.
Proof. reflexivity. Qed.
Lemma back_spec begin g g' : emit_backwards_jump begin g = Ok g' ->
  exists b x y, g' = with_loops (g_loops g ++ [(begin, length (g_bytes g))]) (emit3 b x y 0 g) /\
    enc_jump B_jump_backward (length (g_bytes g) - begin) [num b; x; y].
Proof.
  unfold emit_backwards_jump. remember (length (g_bytes g) - begin) as n.
  destruct (check_jump_offset n); [|discriminate]. cbn [Base.bind]. intros H.
  apply (f_equal (fun r => match r with Ok a => a | Err _ => g end)) in H. subst g'.
  destruct (n <=? 255) eqn:E.
  - exists B_jump_backward, (n mod 256), (n / 256). split; [reflexivity|]. left.
    apply Nat.leb_le in E. rewrite Nat.mod_small, Nat.div_small by lia. reflexivity.
  - exists B_jump2_backward, (n mod 256), (n / 256). split; [reflexivity|]. right.
    rewrite jump2_num. do 2 eexists. split; [reflexivity|]. rewrite (Nat.div_mod n 256) at 1 by lia. lia.
Qed.
Lemma grows_le scs scs' (g g1 g2 : mg) c bb : grows (cx_of scs) (g_lits g1) (A_of scs) g g1 c bb ->
  scs_le scs scs' -> (exists l, g_lits g2 = g_lits g1 ++ l) ->
  grows (cx_of scs') (g_lits g2) (A_of scs') g g1 c bb.
Proof. intros H Hs Hl. eapply grows_mono; eauto using cx_of_le, A_of_le, lits_le_ex. Qed.

Definition goes (i len : nat) (J B T : list (nat * nat)) (R : ctx) (g : mg) (scs : list scope) (c : list item) : Prop :=
  exists f' g' scs' bb', loop f' (i + len) J B T (g', scs') = Ok R /\
    grows (cx_of scs') (g_lits g') (A_of scs') g g' c bb' /\ scs_le scs scs' /\ outs_ok scs'.

Lemma segment C l A1 i c bs L P : enc C l A1 i c bs L P ->
  C = Cb -> l = ls -> A1 = Ab -> noret c = true ->
  forall pre post, whole = pre ++ bs ++ post -> length pre = i -> post <> [] ->
  forall f J B T g scs R, from (i + length bs) J -> from (i + length bs) B -> from (i + length bs) T ->
  loop f i J (P ++ B) T (g, scs) = Ok R -> inl_ctx C0 A scs -> g_inl g = true ->
  goes i (length bs) J B T R g scs (low_code 0 c).
Proof.
  intros H. induction H; intros -> -> -> Hn pre post Hw Hi Hp f J B T g scs R HJ HB HT HR Hc Hg.
  - exists f, g, scs, []. cbn [length app] in *. rewrite Nat.add_0_r. split; [exact HR|].
    split; [apply grows_refl|]. split; [apply scs_le_refl|apply Hc].
  - (* an operation *)
    unfold noret in Hn. cbn [forallb noret_item] in Hn. apply andb_true_iff in Hn. destruct Hn as [Hn1 Hn2].
    destruct (enc_op_head _ _ _ _ _ _ _ H) as (t & Et & El).
    destruct (op_not_jump _ _ _ _ _ _ H) as (N1 & N2 & N3).
    rewrite app_length in *. assert (1 <= length bo) by (rewrite Et; simpl; lia).
    subst i.
    destruct (loop_op ce whole ls lcs f pre b t (bs ++ post) J (P ++ B) T g scs R) as (f' & [g1 scs1] & E1 & E2); auto.
    { rewrite Hw, Et, <- app_assoc. reflexivity. }
    { eapply from_lt; eauto. lia. }
    { eapply from_lt; [apply from_app; [eapply within_from, enc_within; eauto|eapply from_le; eauto; lia]|lia]. }
    destruct (inline_op o b bo pre (bs ++ post) g scs g1 scs1) as ((b' & bo' & E3) & E4 & E5); auto.
    { rewrite Hw, <- app_assoc. reflexivity. }
    destruct (IHenc eq_refl eq_refl eq_refl Hn2 (pre ++ bo) post) with (f := f') (J := J) (B := B) (T := T) (g := g1) (scs := scs1) (R := R)
      as (f2 & g2 & scs2 & bb2 & F1 & F2 & F3 & F4); auto.
    { rewrite Hw, <- !app_assoc. reflexivity. }
    { rewrite app_length. auto. }
    { eapply from_le; eauto. lia. }
    { eapply from_le; eauto. lia. }
    { eapply from_le; eauto. lia. }
    { rewrite El. exact E2. }
    { eapply inl_ctx_le; eauto. }
    { rewrite (em_inl _ _ _ _ _ _ _ _ _ E3). auto. }
    exists f2, g2, scs2, (bo' ++ bb2). split; [rewrite Nat.add_assoc; exact F1|].
    split; [|split; eauto using scs_le_trans].
    change (low_code 0 (IOp o :: c)) with ([IOp (low_op 0 o)] ++ low_code 0 c).
    eapply grows_trans; eauto. eapply grows_le; eauto using emits_grows, gr_lits.
  - (* then *)
    unfold noret in Hn. cbn [forallb noret_item] in Hn. apply andb_true_iff in Hn. destruct Hn as [Hn1 Hn2].
    destruct (enc_jump_parts _ _ _ H0) as (b' & x & y & e & Ej & Eo & Eb & Ef & Ee); [left; eauto|].
    pose proof (enc_jump_3 _ _ _ H0) as J3. rewrite !app_length, J3 in *. subst i.
    destruct (loop_forward ce whole ls lcs f pre b' x y (bb ++ bs ++ post) J ((Pb ++ P) ++ B) T g scs R e) as (f1 & E1); auto.
    { rewrite Hw, Ej, <- !app_assoc. reflexivity. }
    { eapply from_lt; eauto. lia. }
    { eapply from_lt with (m := length pre + 3); [|lia]. repeat apply from_app.
      - eapply within_from, enc_within; eauto.
      - eapply from_le; [eapply within_from, enc_within; eauto|lia].
      - eapply from_le; eauto. lia. }
    rewrite <- Eo, queue_push_front in E1 by (eapply from_le; eauto; lia).
    destruct (IHenc1 eq_refl eq_refl eq_refl Hn1 (pre ++ j) (bs ++ post)) with (f := f1)
      (J := (length pre + (3 + length bb), S (length (g_bytes g))) :: J) (B := P ++ B) (T := T)
      (g := emit3 b' 0 0 e g) (scs := scs) (R := R)
      as (f2 & g2 & scs2 & bb2 & F1 & F2 & F3 & F4); auto.
    { rewrite Hw, <- !app_assoc. reflexivity. }
    { rewrite app_length. lia. }
    { intros E. apply app_eq_nil in E. destruct E; auto. }
    { constructor; [simpl; lia|]. eapply from_le; eauto. lia. }
    { apply from_app; [eapply within_from, enc_within; eauto|]. eapply from_le; eauto. lia. }
    { eapply from_le; eauto. lia. }
    { rewrite app_assoc. exact E1. }
    replace (length pre + (3 + length bb)) with (length pre + 3 + length bb) in F1 by lia.
    apply eager_patch in F1; [|rewrite Hw, !app_length, J3; destruct post; [congruence|simpl; lia]].
    destruct F1 as (g3 & F1 & F5).
    destruct (patch_spec (jump_bc k false) (num b') (g_bytes g) bb2 0 0 (S (length (g_bytes g))) g2 g3) with (5 := F1) as (j' & -> & Ej');
      [left; eauto|auto|auto|rewrite (gr_bytes _ _ _ _ _ _ _ _ F2); simpl; rewrite <- !app_assoc; reflexivity|].
    destruct (IHenc2 eq_refl eq_refl eq_refl Hn2 (pre ++ j ++ bb) post) with (f := f2) (J := J) (B := B) (T := T)
      (g := with_bytes (g_bytes g ++ j' ++ bb2) g2) (scs := scs2) (R := R)
      as (f3 & g3 & scs3 & bb3 & G1 & G2 & G3 & G4); auto.
    { rewrite Hw, <- !app_assoc. reflexivity. }
    { rewrite !app_length. lia. }
    { eapply from_le; eauto. lia. }
    { eapply from_le; eauto. lia. }
    { eapply from_le; eauto. lia. }
    { eapply inl_ctx_le; eauto. }
    { simpl. rewrite (gr_inl _ _ _ _ _ _ _ _ F2). auto. }
    exists f3, g3, scs3, ((j' ++ bb2) ++ bb3). split; [replace (length pre + (3 + (length bb + length bs))) with (length pre + 3 + length bb + length bs) by lia; exact G1|].
    split; [|split; eauto using scs_le_trans].
    change (low_code 0 (IThen k b :: c)) with ([IThen k (low_code 0 b)] ++ low_code 0 c).
    eapply grows_trans; [|exact G2]. eapply grows_then; eauto.
    eapply grows_le; eauto. exact (gr_lits _ _ _ _ _ _ _ _ G2).
  - (* then else *)
    unfold noret in Hn. cbn [forallb noret_item] in Hn. rewrite !andb_true_iff in Hn. destruct Hn as [[Hn1 Hn1'] Hn2].
    destruct (enc_jump_parts _ _ _ H0) as (b' & x & y & e & Ej & Eo & Eb & Ef & Ee); [left; eauto|].
    destruct (enc_jump_parts _ _ _ H2) as (b2' & x2 & y2 & e2 & Ej2 & Eo2 & Eb2 & Ef2 & Ee2); [right; eauto|].
    pose proof (enc_jump_3 _ _ _ H0) as J3. pose proof (enc_jump_3 _ _ _ H2) as J3'.
    rewrite !app_length, J3, J3' in *. subst i.
    assert (1 <= length bb2) by (destruct bb2; [congruence|simpl; lia]).
    destruct (loop_forward ce whole ls lcs f pre b' x y (bb1 ++ j2 ++ bb2 ++ bs ++ post) J ((P1 ++ P2 ++ P) ++ B) T g scs R e) as (f1 & E1); auto.
    { rewrite Hw, Ej, <- !app_assoc. reflexivity. }
    { eapply from_lt; eauto. lia. }
    { eapply from_lt with (m := length pre + 3); [|lia]. repeat apply from_app.
      - eapply within_from, enc_within; eauto.
      - eapply from_le; [eapply within_from, enc_within; eauto|lia].
      - eapply from_le; [eapply within_from, enc_within; eauto|lia].
      - eapply from_le; eauto. lia. }
    rewrite <- Eo, queue_push_front in E1 by (eapply from_le; eauto; lia).
    destruct (IHenc1 eq_refl eq_refl eq_refl Hn1 (pre ++ j1) (j2 ++ bb2 ++ bs ++ post)) with (f := f1)
      (J := (length pre + (3 + length bb1 + 3), S (length (g_bytes g))) :: J) (B := P2 ++ P ++ B) (T := T)
      (g := emit3 b' 0 0 e g) (scs := scs) (R := R)
      as (f2 & g2 & scs2 & bb1' & F1 & F2 & F3 & F4); auto.
    { rewrite Hw, <- !app_assoc. reflexivity. }
    { rewrite app_length. lia. }
    { intros E. apply app_eq_nil in E. destruct E as [E _]. subst j2. discriminate. }
    { constructor; [simpl; lia|]. eapply from_le; eauto. lia. }
    { repeat apply from_app; [eapply from_le; [eapply within_from, enc_within; eauto|lia]..|]. eapply from_le; eauto. lia. }
    { eapply from_le; eauto. lia. }
    { rewrite !app_assoc in *. exact E1. }
    replace (length pre + 3 + length bb1) with (length (pre ++ j1 ++ bb1)) in F1 by (rewrite !app_length; lia).
    destruct (loop_forward ce whole ls lcs f2 (pre ++ j1 ++ bb1) b2' x2 y2 (bb2 ++ bs ++ post)
      ((length pre + (3 + length bb1 + 3), S (length (g_bytes g))) :: J) (P2 ++ P ++ B) T g2 scs2 R e2) as (f3 & E2); auto.
    { rewrite Hw, Ej2, <- !app_assoc. reflexivity. }
    { constructor; [simpl; rewrite !app_length; lia|]. eapply from_lt; eauto. rewrite !app_length. lia. }
    { eapply from_lt with (m := length pre + 3 + length bb1 + 3); [|rewrite !app_length; lia]. repeat apply from_app.
      - eapply within_from, enc_within; eauto.
      - eapply from_le; [eapply within_from, enc_within; eauto|lia].
      - eapply from_le; eauto. lia. }
    rewrite <- Eo2 in E2. cbn [queue_push] in E2.
    replace (length (pre ++ j1 ++ bb1)) with (length pre + 3 + length bb1) in E2 by (rewrite !app_length; lia).
    replace (length pre + 3 + length bb1 + (3 + length bb2) <=? length pre + (3 + length bb1 + 3)) with false in E2
      by (symmetry; apply Nat.leb_gt; lia).
    rewrite queue_push_front in E2 by (eapply from_le; eauto; lia).
    replace (length pre + (3 + length bb1 + 3)) with (length pre + 3 + length bb1 + 3) in E2 by lia.
    apply eager_patch in E2; [|rewrite Hw, !app_length, J3, J3'; destruct post; [congruence|simpl; lia]].
    destruct E2 as (g3 & E2 & E3).
    pose proof (gr_bytes _ _ _ _ _ _ _ _ F2) as By2.
    destruct (patch_spec (jump_bc k true) (num b') (g_bytes g) (bb1' ++ [num b2'; 0; 0]) 0 0 (S (length (g_bytes g))) (emit3 b2' 0 0 e2 g2) g3)
      with (5 := E2) as (j1' & -> & Ej1');
      [left; eauto|auto|auto|simpl; rewrite By2; simpl; rewrite <- !app_assoc; reflexivity|].
    rewrite app_length in Ej1'. cbn [length] in Ej1'. rewrite Nat.add_assoc in Ej1'.
    set (g3 := with_bytes (g_bytes g ++ j1' ++ bb1' ++ [num b2'; 0; 0]) (emit3 b2' 0 0 e2 g2)) in *.
    destruct (IHenc2 eq_refl eq_refl eq_refl Hn1' (pre ++ j1 ++ bb1 ++ j2) (bs ++ post)) with (f := f3)
      (J := (length pre + 3 + length bb1 + (3 + length bb2), S (length (g_bytes g2))) :: J) (B := P ++ B) (T := T)
      (g := g3) (scs := scs2) (R := R)
      as (f4 & g4 & scs4 & bb2' & G1 & G2 & G3 & G4); auto.
    { rewrite Hw, <- !app_assoc. reflexivity. }
    { rewrite !app_length. lia. }
    { intros E. apply app_eq_nil in E. destruct E; auto. }
    { constructor; [simpl; lia|]. eapply from_le; eauto. lia. }
    { apply from_app; [eapply from_le; [eapply within_from, enc_within; eauto|lia]|]. eapply from_le; eauto. lia. }
    { eapply from_le; eauto. lia. }
    { eapply inl_ctx_le; eauto. }
    { simpl. rewrite (gr_inl _ _ _ _ _ _ _ _ F2). auto. }
    replace (length pre + 3 + length bb1 + (3 + length bb2)) with (length pre + 3 + length bb1 + 3 + length bb2) in G1 by lia.
    apply eager_patch in G1; [|rewrite Hw, !app_length, J3, J3'; destruct post; [congruence|simpl; lia]].
    destruct G1 as (g5 & G1 & G5).
    pose proof (gr_bytes _ _ _ _ _ _ _ _ G2) as By4.
    assert (Len2 : length (g_bytes g2) = length (g_bytes g ++ j1' ++ bb1')).
    { apply enc_jump_3 in Ej1'. rewrite By2, !app_length, Ej1'. simpl. rewrite !app_length. simpl. lia. }
    destruct (patch_spec B_jump (num b2') (g_bytes g ++ j1' ++ bb1') bb2' 0 0 (S (length (g_bytes g2))) g4 g5)
      with (5 := G1) as (j2' & -> & Ej2');
      [right; auto|auto|congruence|rewrite By4; unfold g3; simpl; rewrite <- !app_assoc; reflexivity|].
    destruct (IHenc3 eq_refl eq_refl eq_refl Hn2 (pre ++ j1 ++ bb1 ++ j2 ++ bb2) post) with (f := f4) (J := J) (B := B) (T := T)
      (g := with_bytes ((g_bytes g ++ j1' ++ bb1') ++ j2' ++ bb2') g4) (scs := scs4) (R := R)
      as (f5 & g5 & scs5 & bb3 & K1 & K2 & K3 & K4); auto.
    { rewrite Hw, <- !app_assoc. reflexivity. }
    { rewrite !app_length. lia. }
    { eapply from_le; eauto. lia. }
    { eapply from_le; eauto. lia. }
    { eapply from_le; eauto. lia. }
    { eapply inl_ctx_le; eauto using scs_le_trans. }
    { simpl. rewrite (gr_inl _ _ _ _ _ _ _ _ G2). simpl. rewrite (gr_inl _ _ _ _ _ _ _ _ F2). auto. }
    exists f5, g5, scs5, ((j1' ++ bb1' ++ j2' ++ bb2') ++ bb3). split.
    { replace (length pre + (3 + (length bb1 + (3 + (length bb2 + length bs))))) with (length pre + 3 + length bb1 + 3 + length bb2 + length bs) by lia. exact K1. }
    split; [|split; eauto using scs_le_trans].
    change (low_code 0 (IElse k b1 b2 :: c)) with ([IElse k (low_code 0 b1) (low_code 0 b2)] ++ low_code 0 c).
    eapply grows_trans; [|exact K2]. rewrite <- !app_assoc.
    assert (Lx : exists l, g_lits g5 = g_lits g4 ++ l) by exact (gr_lits _ _ _ _ _ _ _ _ K2).
    assert (G2' : grows (cx_of scs5) (g_lits g5) (A_of scs5) g3 g4 (low_code 0 b2) bb2') by (eapply grows_le; eauto).
    eapply grows_else with (b1 := b') (e1 := e) (g2 := g2) (g2' := g3) (b2 := b2') (e2 := e2); eauto.
    + eapply grows_le; eauto using scs_le_trans. destruct Lx as (l1 & ->).
      destruct (gr_lits _ _ _ _ _ _ _ _ G2) as (l2 & ->). simpl. exists (l2 ++ l1). rewrite app_assoc. reflexivity.
    + destruct (gr_enc _ _ _ _ _ _ _ _ G2') as (Lq & Pq & Eq & _). eapply low_nonnil; eauto.
  - (* loop *)
    unfold noret in Hn. cbn [forallb noret_item] in Hn. rewrite !andb_true_iff in Hn. destruct Hn as [[Hn1 Hn1'] Hn2].
    destruct (enc_jump_parts _ _ _ H0) as (b' & x & y & e & Ej & Eo & Eb & Ef & Ee); [left; eauto|].
    pose proof (enc_jump_3 _ _ _ H0) as J3. pose proof (enc_jump_3 _ _ _ H2) as J3'.
    rewrite !app_length, J3, J3' in *. subst i.
    cbn [app] in HR. apply eager_back in HR; [|rewrite Hw, !app_length, J3, J3'; destruct post; [congruence|simpl; lia]].
    rewrite queue_push_front in HR by (eapply from_le; eauto; lia).
    set (eb := length pre + length bt + 3 + length bb) in *.
    destruct (IHenc1 eq_refl eq_refl eq_refl Hn1 pre (j1 ++ bb ++ j2 ++ bs ++ post)) with (f := f)
      (J := J) (B := Pb ++ P ++ B) (T := (eb, length (g_bytes g)) :: T) (g := g) (scs := scs) (R := R)
      as (f1 & g1 & scs1 & bt' & F1 & F2 & F3 & F4); auto.
    { rewrite Hw, <- !app_assoc. reflexivity. }
    { intros E. apply app_eq_nil in E. destruct E as [E _]. subst j1. discriminate. }
    { eapply from_le; eauto. lia. }
    { repeat apply from_app; [eapply from_le; [eapply within_from, enc_within; eauto|unfold eb; lia]..|]. eapply from_le; eauto. lia. }
    { constructor; [simpl; unfold eb; lia|]. eapply from_le; eauto. lia. }
    { rewrite !app_assoc in *. exact HR. }
    replace (length pre + length bt) with (length (pre ++ bt)) in F1 by (rewrite !app_length; lia).
    destruct (loop_forward ce whole ls lcs f1 (pre ++ bt) b' x y (bb ++ j2 ++ bs ++ post) J (Pb ++ P ++ B)
      ((eb, length (g_bytes g)) :: T) g1 scs1 R e) as (f2 & E1); auto.
    { rewrite Hw, Ej, <- !app_assoc. reflexivity. }
    { eapply from_lt; eauto. rewrite app_length. lia. }
    { eapply from_lt with (m := length pre + length bt + 3); [|rewrite app_length; lia]. repeat apply from_app.
      - eapply within_from, enc_within; eauto.
      - eapply from_le; [eapply within_from, enc_within; eauto|unfold eb; lia].
      - eapply from_le; eauto. lia. }
    replace (length (pre ++ bt)) with (length pre + length bt) in E1 by (rewrite !app_length; lia).
    rewrite <- Eo, queue_push_front in E1 by (eapply from_le; eauto; lia).
    destruct (IHenc2 eq_refl eq_refl eq_refl Hn1' (pre ++ bt ++ j1) (j2 ++ bs ++ post)) with (f := f2)
      (J := (length pre + length bt + (3 + length bb + 3), S (length (g_bytes g1))) :: J) (B := P ++ B)
      (T := (eb, length (g_bytes g)) :: T) (g := emit3 b' 0 0 e g1) (scs := scs1) (R := R)
      as (f3 & g3 & scs3 & bb' & G1 & G2 & G3 & G4); auto.
    { rewrite Hw, <- !app_assoc. reflexivity. }
    { rewrite !app_length. lia. }
    { intros E. apply app_eq_nil in E. destruct E as [E _]. subst j2. discriminate. }
    { constructor; [simpl; lia|]. eapply from_le; eauto. lia. }
    { apply from_app; [eapply from_le; [eapply within_from, enc_within; eauto|unfold eb; lia]|]. eapply from_le; eauto. lia. }
    { constructor; [simpl; unfold eb; lia|]. eapply from_le; eauto. lia. }
    { eapply inl_ctx_le; eauto. }
    { simpl. rewrite (gr_inl _ _ _ _ _ _ _ _ F2). auto. }
    assert (Hb2 : exists bj xj yj, j2 = [num bj; xj; yj] /\ (bj = B_jump_backward \/ bj = B_jump2_backward)).
    { destruct H2 as [-> | (xj & yj & -> & _)]; [exists B_jump_backward|exists B_jump2_backward]; eauto. }
    destruct Hb2 as (bj & xj & yj & Ej2 & Hbj).
    replace (length pre + length bt + 3 + length bb) with (length (pre ++ bt ++ j1 ++ bb)) in G1 by (rewrite !app_length; lia).
    replace eb with (length (pre ++ bt ++ j1 ++ bb)) in G1 by (unfold eb; rewrite !app_length; lia).
    destruct (loop_backward ce whole ls lcs f3 (pre ++ bt ++ j1 ++ bb) bj xj yj (bs ++ post)
      ((length pre + length bt + (3 + length bb + 3), S (length (g_bytes g1))) :: J) (P ++ B) T g3 scs3 R (length (g_bytes g)))
      as (f4 & g4 & E2 & E3); auto.
    { rewrite Hw, Ej2, <- !app_assoc. reflexivity. }
    { constructor; [simpl; rewrite !app_length; lia|]. eapply from_lt; eauto. rewrite !app_length. lia. }
    { eapply from_lt with (m := length pre + length bt + 3 + length bb + 3); [|rewrite !app_length; lia]. apply from_app.
      - eapply within_from, enc_within; eauto.
      - eapply from_le; eauto. lia. }
    replace (length (pre ++ bt ++ j1 ++ bb) + 3) with (length pre + length bt + 3 + length bb + 3) in E3 by (rewrite !app_length; lia).
    replace (length pre + length bt + (3 + length bb + 3)) with (length pre + length bt + 3 + length bb + 3) in E3 by lia.
    apply eager_patch in E3; [|rewrite Hw, !app_length, J3, J3'; destruct post; [congruence|simpl; lia]].
    destruct E3 as (g5 & E3 & E4).
    destruct (back_spec _ _ _ E2) as (bj' & xj' & yj' & Eg4 & Ejb).
    pose proof (gr_bytes _ _ _ _ _ _ _ _ F2) as By1. pose proof (gr_bytes _ _ _ _ _ _ _ _ G2) as By3.
    destruct (patch_spec (jump_bc k true) (num b') (g_bytes g1) (bb' ++ [num bj'; xj'; yj']) 0 0 (S (length (g_bytes g1))) g4 g5)
      with (5 := E3) as (j1' & -> & Ej1');
      [left; eauto|auto|auto|rewrite Eg4; simpl; rewrite By3; simpl; rewrite <- !app_assoc; reflexivity|].
    rewrite app_length in Ej1'. cbn [length] in Ej1'. rewrite Nat.add_assoc in Ej1'.
    assert (Lb' : length (g_bytes g3) - length (g_bytes g) = length bt' + 3 + length bb').
    { rewrite By3, !app_length. simpl. rewrite !app_length, By1, !app_length. simpl. lia. }
    rewrite Lb' in Ejb.
    destruct (IHenc3 eq_refl eq_refl eq_refl Hn2 (pre ++ bt ++ j1 ++ bb ++ j2) post) with (f := f4) (J := J) (B := B) (T := T)
      (g := with_bytes (g_bytes g1 ++ j1' ++ bb' ++ [num bj'; xj'; yj']) g4) (scs := scs3) (R := R)
      as (f5 & g5 & scs5 & bb3 & K1 & K2 & K3 & K4); auto.
    { rewrite Hw, <- !app_assoc. reflexivity. }
    { rewrite !app_length. lia. }
    { eapply from_le; eauto. lia. }
    { eapply from_le; eauto. lia. }
    { eapply from_le; eauto. lia. }
    { eapply inl_ctx_le; eauto using scs_le_trans. }
    { simpl. rewrite Eg4. simpl. rewrite (gr_inl _ _ _ _ _ _ _ _ G2). simpl. rewrite (gr_inl _ _ _ _ _ _ _ _ F2). auto. }
    exists f5, g5, scs5, ((bt' ++ j1' ++ bb' ++ [num bj'; xj'; yj']) ++ bb3). split.
    { replace (length pre + (length bt + (3 + (length bb + (3 + length bs))))) with (length pre + length bt + 3 + length bb + 3 + length bs) by lia. exact K1. }
    split; [|split; eauto using scs_le_trans].
    change (low_code 0 (ILoop k t b :: c)) with ([ILoop k (low_code 0 t) (low_code 0 b)] ++ low_code 0 c).
    eapply grows_trans; [|exact K2].
    assert (Lx : exists l, g_lits g5 = g_lits g3 ++ l).
    { destruct (gr_lits _ _ _ _ _ _ _ _ K2) as (l & ->). exists l. rewrite Eg4. reflexivity. }
    eapply grows_loop with (b1 := b') (e1 := e) (g1 := g1) (g2 := g3) (b2 := bj') (e2 := 0%Z); eauto; try lia.
    + eapply grows_le; eauto using scs_le_trans. destruct Lx as (l1 & ->).
      destruct (gr_lits _ _ _ _ _ _ _ _ G2) as (l2 & ->). simpl. exists (l2 ++ l1). rewrite app_assoc. reflexivity.
    + eapply grows_le; eauto.
    + rewrite Eg4, By1. unfold with_bytes. simpl. rewrite <- !app_assoc. reflexivity.
Qed.
End Op.

(** * A whole block method *)
Lemma inline_locals_spec new : forall cur r, inline_locals new cur = Ok r ->
  exists qs, r = cur ++ qs /\ Forall is_qual qs.
Proof.
  induction new as [|l new IH]; simpl; intros cur r H.
  - inversion H. exists []. rewrite app_nil_r. auto.
  - destruct (has_key _ cur); [discriminate|]. apply IH in H. destruct H as (qs & -> & Hq).
    exists (qualified l :: qs). rewrite <- app_assoc. split; auto. constructor; auto.
    unfold is_qual, qualified. destruct l as [[n|n s] d]; simpl; eauto.
Qed.
Lemma merge_into_spec m scs scs' : merge_into_scope m scs = Ok scs' -> outs_ok scs ->
  scs_le scs scs' /\ outs_ok scs' /\ me_nargs m = 1.
Proof.
  unfold merge_into_scope. destruct (me_nargs m =? 1) eqn:E; [|discriminate]. apply Nat.eqb_eq in E.
  destruct scs as [|sc outer]; [discriminate|].
  destruct (inline_locals _ _) as [l|] eqn:El; [|discriminate]. simpl. intros H Ho. injection H as <-.
  destruct (inline_locals_spec _ _ _ El) as (qs & -> & Hq). split; [|split; auto].
  constructor; [|apply scs_le_refl]. split; [reflexivity|]. split; [exists qs; auto|].
  split; [auto|]. split; [auto|]. split; [auto|apply incl_refl].
Qed.
Lemma impl_args C A rho b m : impl C A rho b m -> no_params b = true -> exists label ls ss ret per, b = SBlk label [] ls ss ret per.
Proof. intros H Hn. inversion H; subst. destruct ps; [eauto 10|discriminate]. Qed.

Definition computes (code : list item) (f : forall S X, machine S X -> nat -> S -> BcInterp.out S X value) : Prop :=
  forall S X (μ : machine S X), lawful μ -> forall n st s,
  exec μ code n st s = bind (f S X μ n s) (fun v s => Done (v :: st) s).

Theorem inline_meth ce m A rho b g scs g' scs' :
  impl (cx_of scs) A rho b m -> allow_le A (A_of scs) -> no_params b = true ->
  map lv_args rho = map snd (cx_of scs) -> scs <> [] -> outs_ok scs -> g_inl g = true ->
  inline_method ce m (g, scs) = Ok (g', scs') ->
  exists code bb,
    grows (cx_of scs') (g_lits g') (A_of scs') g g' code bb /\ bb <> [] /\
    scs_le scs scs' /\ outs_ok scs' /\ (exists p, typ code 0 = Some (1, p)) /\
    (2 <= length scs -> noret code = true) /\
    computes code (fun S X μ n s => eval_inline fields b μ rho n s) /\
    oblks code = created_inl b rho.
Proof.
  intros Hi HA0 Hnp Hr Hne Ho Hg H.
  pose proof (impl_mono _ _ _ _ _ _ _ (A_of scs) Hi (cx_le_refl _) HA0) as Hi'. clear Hi HA0 A.
  inversion Hi' as [C A rho0 label ps ls ss ret per out bytes lits locals loops P mx tr body fin p
    Hok Hlc Hout Henc Hnr Hfin Hsem Htr Htyp Hmx Hblks]; subst. clear Hi'.
  destruct ps as [|? ?]; [|discriminate]. cbn [length] in *.
  assert (Hlen : length rho = length scs).
  { apply (f_equal (@length _)) in Hr. rewrite !map_length, cx_of_length in Hr. auto. }
  assert (Hrho : rho <> []) by (intros ->; destruct scs; [congruence|discriminate]).
  pose proof (rooted_A scs) as Hroot.
  destruct (enc_app_inv _ _ _ _ _ _ _ _ _ _ Henc) as (b1 & b2 & L1 & L2 & P1 & P2 & -> & -> & -> & Hb & Hf).
  assert (Hf' : exists bf, enc_op ((map snd locals, [t_block_self]) :: cx_of scs) lits (nest (A_of scs) out) fin bf b2 /\ L2 = [] /\ P2 = []).
  { inversion Hf; subst.
    match goal with X : BcCode.enc _ _ _ _ _ [] _ _ _ |- _ => inversion X; subst end.
    rewrite app_nil_r. eauto. }
  destruct Hf' as (bf & Hfo & -> & ->).
  assert (Hcode : (exists p, typ (low_code 0 (inl_part body fin)) 0 = Some (1, p)) /\
    (2 <= length scs -> noret (low_code 0 (inl_part body fin)) = true) /\
    computes (low_code 0 (inl_part body fin)) (fun S X μ n s => eval_inline fields (SBlk label [] ls ss ret per) μ rho n s) /\
    oblks (low_code 0 (inl_part body fin)) = (created_inl (SBlk label [] ls ss ret per) rho)).
  { split; [|split; [|split]].
    - rewrite typ_low. destruct fin; try contradiction; simpl inl_part; [|eauto].
      rewrite typ_app in Htyp. apply hseq_some in Htyp. destruct Htyp as (h & q & r & E1 & E2 & ->).
      cbn [typ] in E2. rewrite typ_item_eq in E2. cbn [op_ht] in E2.
      destruct (1 <=? h); [|discriminate]. cbn [hseq] in E2. inversion E2; subst. eauto.
    - intros H2. assert (HN : forall k, nest (A_of scs) out k ANlr -> 2 <= k).
      { intros [|k] Hk; simpl in Hk.
        - destruct (Hout _ Hk) as (v & E & _). discriminate.
        - pose proof (Hroot _ _ Hk (or_intror eq_refl)) as E. rewrite cx_of_length in E. lia. }
      pose proof (noret_low _ 0 _ _ _ _ _ _ _ _ Hb HN Hnr) as N1.
      destruct fin; try contradiction; simpl inl_part; auto.
      rewrite low_app. unfold noret. rewrite forallb_app. fold (noret (low_code 0 body)). rewrite N1.
      simpl. destruct (k - 1) eqn:E; [|reflexivity]. lia.
    - intros S X μ Hl n st s. rewrite exec_low, Hsem by (apply lawful_pull; auto).
      pose proof (eval_merge fields μ 0 _ Hok) as [_ E]. rewrite E.
      + rewrite merge_add_level by auto. reflexivity.
      + split; [|reflexivity]. destruct rho; [congruence|]. simpl. lia.
    - cbn [created_inl]. rewrite <- merge_add_level by auto. rewrite body_merge by (split; [destruct rho; [congruence|simpl; lia]|reflexivity]).
      apply blks_low. destruct fin; try contradiction; cbn [inl_part]; auto. rewrite oblks_app. cbn. rewrite app_nil_r. auto. }
  assert (Hlow : low_code 0 (inl_part body fin) <> []).
  { destruct Hcode as ((q & E) & _). intros E0. rewrite E0 in E. discriminate. }
  cut (exists bb, grows (cx_of scs') (g_lits g') (A_of scs') g g' (low_code 0 (inl_part body fin)) bb /\
         scs_le scs scs' /\ outs_ok scs').
  { intros (bb & Gr & H1 & H2). exists (low_code 0 (inl_part body fin)), bb. split; auto.
    destruct (gr_enc _ _ _ _ _ _ _ _ Gr) as (L & P & E & _). split; [|tauto].
    intros E0. apply enc_nonnil in E. apply E in E0. auto. }
  clear Hcode Hlow.
  unfold inline_method in H. cbn [me_triv me_bytes me_lits me_locals me_loops] in H.
  destruct tr as [[l|t s0|i k|i k]|]; cbn [triv_ok] in Htr.
  - destruct Htr as (v & Hv & -> & ->). injection H as Eg Es. subst scs'. simpl inl_part.
    destruct (emits_const fields (cx_of scs) (g_lits g') (A_of scs) g l v Hv) as (b' & bo' & E & _).
    { rewrite Eg. apply keeps_refl. }
    rewrite Eg in E. exists bo'. split; [eapply emits_grows; eauto|]. split; auto using scs_le_refl.
  - destruct Htr as (-> & -> & Hpg). simpl inl_part.
    assert (E : emit_push_global ce t (g, scs) = (g', scs')) by congruence.
    destruct (emits_global fields ce (cx_of scs') (g_lits g') (A_of scs') _ _ _ _ _ E) as [(b' & bo' & E1 & _) E2].
    { intros l _. apply keeps_refl. }
    assert (Eo : glob_op t = OGlob t).
    { unfold glob_op, plain_global in *. destruct (text_eqb t t_nil), (text_eqb t t_true), (text_eqb t t_false); auto; discriminate. }
    rewrite Eo in E1. exists bo'. split; [eapply emits_grows; eauto|].
    destruct E2 as [-> | ->]; split; auto using scs_le_refl, mark_self_le, outs_ok_mark_self.
  - destruct Htr as (-> & -> & ->). simpl inl_part.
    assert (Ek : length rho - 1 = max_ctx scs) by (rewrite Hlen; reflexivity).
    assert (Hfld : A_of scs (max_ctx scs) AFld).
    { inversion Hb; subst.
      match goal with X : BcCode.enc_op _ _ _ _ (OFld _ _) _ _ |- _ => inversion X; subst end;
        try (destruct rho; [congruence|discriminate]).
      match goal with X : _ -> nest _ _ _ AFld |- _ => rename X into HH end.
      destruct rho as [|x rho]; [congruence|]. specialize (HH (Nat.neq_succ_0 _)). simpl in HH, Ek.
      rewrite Nat.sub_0_r in Ek. rewrite Ek in HH. exact HH. }
    rewrite Ek in H. injection H as <- <-. cbn [low_code map low_item low_op]. rewrite low0, Ek.
    destruct (emits_fld fields (cx_of scs) (g_lits (emit_push_field_with_index i (max_ctx scs) (max_ctx scs) g)) (A_of scs) g i (max_ctx scs))
      as (b' & bo' & E & _); [auto|]. exists bo'. split; [eapply emits_grows; eauto|]. split; auto using scs_le_refl.
  - contradiction.
  - clear Htr. destruct (merge_into_scope _ scs) as [scs1|] eqn:Em; [|discriminate]. cbn [Base.bind] in H.
    destruct (merge_into_spec _ _ _ Em Ho) as (M1 & M2 & _).
    rewrite !app_nil_r in *.
    assert (Hq : back_jump_queue L1 = P1) by (eapply back_jumps; exact Hb). rewrite Hq in H. clear Hq.
    destruct (enc_op_head _ _ _ _ _ _ _ Hfo) as (tf & Etf & Elf).
    assert (Hc1 : inl_ctx (cx_of scs) (A_of scs) scs1).
    { apply inl_ctx_le with scs; auto. split; auto using cx_le_refl, allow_le_refl. }
    destruct (segment ce (b1 ++ b2) lits locals (cx_of scs) (A_of scs) out Hout Hroot _ _ _ 0 body b1 L1 P1 Hb eq_refl eq_refl eq_refl Hnr
      [] b2 eq_refl eq_refl) with (f := Datatypes.S (length (b1 ++ b2))) (J := @nil (nat * nat)) (B := @nil (nat * nat)) (T := @nil (nat * nat))
      (g := g) (scs := scs1) (R := (g', scs')) as (f1 & g1 & scs2 & bb1 & F1 & F2 & F3 & F4); auto.
    { rewrite Etf. discriminate. }
    { rewrite app_nil_r. exact H. }
    cbn [Nat.add] in F1.
    destruct (op_not_jump _ _ _ _ _ _ Hfo) as (N1 & N2 & N3).
    destruct (loop_op ce (b1 ++ b2) lits locals f1 b1 bf tf [] [] [] [] g1 scs2 (g', scs')) as (f2 & [g2 scs3] & E1 & E2); auto.
    { rewrite Etf, app_nil_r. reflexivity. }
    assert (Hend : (g2, scs3) = (g', scs')).
    { destruct f2 as [|f2]; [discriminate|]. cbn [inline_loop] in E2.
      rewrite app_length, Elf, Nat.leb_refl in E2. congruence. }
    injection Hend as -> ->.
    assert (Hc2 : inl_ctx (cx_of scs) (A_of scs) scs2) by (apply inl_ctx_le with scs1; auto).
    destruct fin; try contradiction; simpl inl_part.
    + inversion Hfo; subst. cbn [inline_bc] in E1. injection E1 as <- <-.
      exists bb1. split; auto. split; eauto using scs_le_trans.
    + destruct (inline_op ce (b1 ++ b2) lits locals (cx_of scs) (A_of scs) out Hout Hroot (ORetNl k) bf b2 b1 [] g1 scs2 g' scs')
        as ((b' & bo' & E3) & E4 & E5); auto.
      { rewrite app_nil_r. reflexivity. }
      { rewrite (gr_inl _ _ _ _ _ _ _ _ F2). auto. }
      exists (bb1 ++ bo'). split; [|split; eauto using scs_le_trans].
      rewrite low_app. eapply grows_trans; [|eapply emits_grows; eauto].
      eapply grows_le; eauto. exact (em_lits _ _ _ _ _ _ _ _ _ E3).
Qed.
End Inl.
