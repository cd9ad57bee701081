(** Encodings stay encodings when literals, locals and rights are added, and when a level
    they do not use disappears. *)
From Coq Require Import ZArith Bool String Ascii List Lia.
From Verif Require Import Base LexModel ParseModel BcModel BcInterp BcSpec BcCode BcEval.
Import ListNotations.
Open Scope nat_scope.
Open Scope list_scope.

Definition cx_le (C C' : cx) : Prop :=
  map snd C = map snd C' /\ forall k i d, cslot C k i = Some d -> cslot C' k i = Some d.
Definition lits_le (l l' : list literal) : Prop :=
  forall i x, nth_error l i = Some x -> nth_error l' i = Some x.
Definition allow_le (A A' : allow) : Prop := forall k a, A k a -> A' k a.

Lemma cx_le_refl C : cx_le C C.
Proof. split; auto. Qed.
Lemma cx_le_trans C C1 C2 : cx_le C C1 -> cx_le C1 C2 -> cx_le C C2.
Proof. intros [H1 H2] [H3 H4]. split; [congruence|]. auto. Qed.
Lemma lits_le_refl l : lits_le l l.
Proof. intros i x; auto. Qed.
Lemma lits_le_trans l l1 l2 : lits_le l l1 -> lits_le l1 l2 -> lits_le l l2.
Proof. intros H1 H2 i x H. auto. Qed.
Lemma lits_le_app l a : lits_le l (l ++ a).
Proof. intros i x H. rewrite nth_error_app1; auto. apply nth_error_Some. congruence. Qed.
Lemma allow_le_refl A : allow_le A A.
Proof. intros k a; auto. Qed.
Lemma allow_le_trans A A1 A2 : allow_le A A1 -> allow_le A1 A2 -> allow_le A A2.
Proof. intros H1 H2 k a H. auto. Qed.
Lemma none_le A : allow_le none A.
Proof. intros k a []. Qed.
Lemma cslot_S x C k i : cslot (x :: C) (S k) i = cslot C k i.
Proof. reflexivity. Qed.
Lemma cx_le_cons x C C' : cx_le C C' -> cx_le (x :: C) (x :: C').
Proof.
  intros [H1 H2]. split; simpl; [congruence|]. intros [|k] i d H; auto.
  rewrite cslot_S in *. auto.
Qed.
Lemma nest_le A A' o : allow_le A A' -> allow_le (nest A o) (nest A' o).
Proof. intros H [|k] a; simpl; auto. Qed.

Section Mono.
Variable fields : list text.

Lemma enc_mono_all :
  (forall C ls A o b bo, enc_op fields C ls A o b bo -> forall C' ls' A',
     cx_le C C' -> lits_le ls ls' -> allow_le A A' -> enc_op fields C' ls' A' o b bo) /\
  (forall C ls A i c bs L P, enc fields C ls A i c bs L P -> forall C' ls' A',
     cx_le C C' -> lits_le ls ls' -> allow_le A A' -> enc fields C' ls' A' i c bs L P) /\
  (forall C A rho b m, impl fields C A rho b m -> forall C' A',
     cx_le C C' -> allow_le A A' -> impl fields C' A' rho b m).
Proof.
  apply enc_all; intros; try (econstructor; eauto; fail).
  - econstructor; eauto. apply H1; auto.
  - econstructor; eauto. apply H1; auto.
  - eapply E_blk; eauto. destruct H3 as [H3 _]. congruence.
  - eapply E_blk_no; eauto. destruct H3 as [H3 _]. congruence. apply H2; auto. apply allow_le_refl.
  - eapply Impl; eauto. apply H3; auto using lits_le_refl.
    + apply cx_le_cons; auto.
    + apply nest_le; auto.
Qed.
Lemma enc_op_mono C ls A o b bo C' ls' A' :
  enc_op fields C ls A o b bo -> cx_le C C' -> lits_le ls ls' -> allow_le A A' ->
  enc_op fields C' ls' A' o b bo.
Proof. intros. eapply (proj1 enc_mono_all); eauto. Qed.
Lemma enc_mono C ls A i c bs L P C' ls' A' :
  enc fields C ls A i c bs L P -> cx_le C C' -> lits_le ls ls' -> allow_le A A' ->
  enc fields C' ls' A' i c bs L P.
Proof. intros. eapply (proj1 (proj2 enc_mono_all)); eauto. Qed.
Lemma impl_mono C A rho b m C' A' :
  impl fields C A rho b m -> cx_le C C' -> allow_le A A' -> impl fields C' A' rho b m.
Proof. intros. eapply (proj2 (proj2 enc_mono_all)); eauto. Qed.

Lemma enc_app C ls A c1 : forall i c2 b1 b2 L1 P1 L2 P2,
  enc fields C ls A i c1 b1 L1 P1 -> enc fields C ls A (i + length b1) c2 b2 L2 P2 ->
  enc fields C ls A i (c1 ++ c2) (b1 ++ b2) (L1 ++ L2) (P1 ++ P2).
Proof.
  intros i c2 b1 b2 L1 P1 L2 P2 H1 H2. revert H2.
  induction H1; intros H2'; cbn [app length] in *.
  - rewrite Nat.add_0_r in H2'. auto.
  - rewrite <- app_assoc. econstructor; eauto. apply IHenc.
    rewrite app_length in H2'. rewrite <- Nat.add_assoc. auto.
  - rewrite <- !app_assoc. econstructor; eauto. apply IHenc2.
    rewrite !app_length in H2'.
    assert (length j = 3) by (destruct H as [-> | (x & y & -> & _)]; reflexivity).
    replace (i + 3 + length bb + length bs) with (i + (length j + (length bb + length bs))) by lia. auto.
  - rewrite <- !app_assoc. econstructor; eauto. apply IHenc3.
    rewrite !app_length in H2'.
    assert (length j1 = 3) by (destruct H as [-> | (x & y & -> & _)]; reflexivity).
    assert (length j2 = 3) by (destruct H0 as [-> | (x & y & -> & _)]; reflexivity).
    replace (i + 3 + length bb1 + 3 + length bb2 + length bs) with
      (i + (length j1 + (length bb1 + (length j2 + (length bb2 + length bs))))) by lia. auto.
  - rewrite <- !app_assoc. cbn [app]. rewrite <- ?app_assoc. econstructor; eauto. apply IHenc3.
    rewrite !app_length in H2'.
    assert (length j1 = 3) by (destruct H as [-> | (x & y & -> & _)]; reflexivity).
    assert (length j2 = 3) by (destruct H0 as [-> | (x & y & -> & _)]; reflexivity).
    replace (i + length bt + 3 + length bb + 3 + length bs) with
      (i + (length bt + (length j1 + (length bb + (length j2 + length bs))))) by lia. auto.
Qed.
Lemma enc_app_inv C ls A c1 : forall c2 i bs L P, enc fields C ls A i (c1 ++ c2) bs L P ->
  exists b1 b2 L1 L2 P1 P2, bs = b1 ++ b2 /\ L = L1 ++ L2 /\ P = P1 ++ P2 /\
    enc fields C ls A i c1 b1 L1 P1 /\ enc fields C ls A (i + length b1) c2 b2 L2 P2.
Proof.
  induction c1 as [|x c1 IH]; intros c2 i bs L P H; cbn [app] in H.
  - exists [], bs, [], L, [], P. simpl. rewrite Nat.add_0_r. repeat split; auto. constructor.
  - inversion H as [|? ? ? ? ? ? ? ? bs0 ? ? Ho Hc|? ? ? ? ? ? ? ? ? j ? bs0 ? ? Hb Hj Hc
      |? ? ? ? ? ? ? ? ? ? ? ? ? j1 j2 ? bs0 ? ? Hb1 Hj1 Hb2 Hj2 Hne Hc
      |? ? ? ? ? ? ? ? ? ? ? ? ? j1 j2 ? bs0 ? ? Ht Hj1 Hb Hj2 Hc]; subst;
      apply IH in Hc; destruct Hc as (r1 & r2 & M1 & M2 & Q1 & Q2 & -> & -> & -> & E1 & E2).
    + exists (bo ++ r1), r2, M1, M2, Q1, Q2. rewrite <- app_assoc, app_length, Nat.add_assoc.
      repeat split; auto. econstructor; eauto.
    + assert (length j = 3) by (destruct Hj as [-> | (y & z & -> & _)]; reflexivity).
      exists (j ++ bb ++ r1), r2, (Lb ++ M1), M2, (Pb ++ Q1), Q2. rewrite <- !app_assoc, !app_length.
      repeat split; auto. econstructor; eauto.
      replace (i + (length j + (length bb + length r1))) with (i + 3 + length bb + length r1) by lia. auto.
    + assert (length j1 = 3) by (destruct Hj1 as [-> | (y & z & -> & _)]; reflexivity).
      assert (length j2 = 3) by (destruct Hj2 as [-> | (y & z & -> & _)]; reflexivity).
      exists (j1 ++ bb1 ++ j2 ++ bb2 ++ r1), r2, (L1 ++ L2 ++ M1), M2, (P1 ++ P2 ++ Q1), Q2.
      rewrite <- !app_assoc, !app_length.
      repeat split; auto. econstructor; eauto.
      match goal with |- enc _ _ _ _ ?x _ _ _ _ => match type of E2 with enc _ _ _ _ ?y _ _ _ _ => replace x with y by lia end end. auto.
    + assert (length j1 = 3) by (destruct Hj1 as [-> | (y & z & -> & _)]; reflexivity).
      assert (length j2 = 3) by (destruct Hj2 as [-> | (y & z & -> & _)]; reflexivity).
      exists (bt ++ j1 ++ bb ++ j2 ++ r1), r2, (Lt ++ Lb ++ (i, i + length bt + 3 + length bb) :: M1), M2,
        ((i, i + length bt + 3 + length bb) :: Pt ++ Pb ++ Q1), Q2.
      cbn [app]. rewrite <- !app_assoc, !app_length. cbn [app].
      repeat split; auto. econstructor; eauto.
      match goal with |- enc _ _ _ _ ?x _ _ _ _ => match type of E2 with enc _ _ _ _ ?y _ _ _ _ => replace x with y by lia end end. auto.
Qed.
Lemma enc_one C ls A i o b bo : enc_op fields C ls A o b bo -> enc fields C ls A i [IOp o] bo [] [].
Proof. intros H. rewrite <- (app_nil_r bo). econstructor; eauto. constructor. Qed.
End Mono.

(** * A level that is not used disappears *)
Fixpoint drop_at {A} (q : nat) (l : list A) : list A :=
  match q, l with
  | _, [] => []
  | O, _ :: r => r
  | S q, x :: r => x :: drop_at q r
  end.
(** Level [q] of [C] (a block without parameters) is merged with the level around it. *)
Definition mrg (q : nat) (C C' : cx) : Prop :=
  S q < length C /\ nth_error (map snd C) q = Some [t_block_self] /\
  map snd C' = drop_at q (map snd C).
Lemma mrg_S q x C C' : mrg q C C' -> mrg (S q) (x :: C) (x :: C').
Proof. intros (H1 & H2 & H3). split; [simpl; lia|]. split; simpl; congruence. Qed.
Lemma mrg_mergeable q C C' rho : mrg q C C' -> map lv_args rho = map snd C -> mergeable q rho.
Proof.
  intros (H1 & H2 & H3) Hr. split.
  - apply (f_equal (@length _)) in Hr. rewrite !map_length in Hr. lia.
  - rewrite <- nth_error_map. congruence.
Qed.
Lemma args_merge q rho : S q < length rho -> map lv_args (merge q rho) = drop_at q (map lv_args rho).
Proof.
  revert rho. induction q as [|q IH]; intros rho H; destruct rho as [|a [|b rho]]; simpl in *; try lia; auto.
  f_equal. rewrite IH by (simpl; lia). reflexivity.
Qed.
Lemma mrg_args q C C' rho : mrg q C C' -> map lv_args rho = map snd C ->
  map lv_args (merge q rho) = map snd C'.
Proof.
  intros Hm Hr. destruct (mrg_mergeable _ _ _ _ Hm Hr) as [H _]. rewrite args_merge by auto.
  destruct Hm as (_ & _ & ->). congruence.
Qed.
Lemma merge_level_S q ps ls rho : merge (S q) (add_level ps ls rho) = add_level ps ls (merge q rho).
Proof. reflexivity. Qed.
Lemma mergeable_level q ps ls rho : mergeable q rho -> mergeable (S q) (add_level ps ls rho).
Proof. intros H. apply mergeable_S. auto. Qed.

Section Closed.
Variable fields : list text.

Lemma block_sem_low q rho ps ls ss ret code label per :
  ok_src (SBlk label ps ls ss ret per) = true -> mergeable q rho ->
  block_sem fields rho ps ls ss ret code ->
  block_sem fields (merge q rho) ps ls ss ret (low_code (S q) code).
Proof.
  intros Hok Hm H S X μ Hl n st s. rewrite exec_low, H by (apply lawful_pull; auto).
  pose proof (eval_merge fields μ (Datatypes.S q) _ Hok) as [_ E]. rewrite E by (apply mergeable_level; auto).
  reflexivity.
Qed.

(** Nothing outside the first [q] levels, only variables. *)
Definition closed (q : nat) (A : allow) : Prop :=
  forall k a, A k a -> k < q /\ exists v, a = AVar v.
Lemma closed_nest q A o na : closed q A -> out_ok na o -> closed (S q) (nest A o).
Proof.
  intros H Ho [|k] a Ha; simpl in Ha.
  - destruct (Ho _ Ha) as (v & -> & _). split; [lia|eauto].
  - destruct (H _ _ Ha). split; [lia|auto].
Qed.
Lemma inl_part_low r body fin : (match fin with ORet => True | ORetNl k => 2 <= k | _ => False end) ->
  inl_part (low_code r body) (low_op r fin) = low_code r (inl_part body fin).
Proof.
  destruct fin; intros H; try contradiction; simpl; auto.
  destruct (k - 1) as [|k'] eqn:E; [lia|]. rewrite low_app. simpl. rewrite E. reflexivity.
Qed.
Definition agree (q : nat) (C C' : cx) : Prop := forall k, k < q -> nth_error C' k = nth_error C k.
Lemma agree_S q x C C' : agree q C C' -> agree (S q) (x :: C) (x :: C').
Proof. intros H [|k] Hk; simpl; auto. apply H. lia. Qed.
Lemma agree_slot q C C' k i : agree q C C' -> k < q -> cslot C' k i = cslot C k i.
Proof. intros H Hk. unfold cslot, slot. rewrite !nth_error_map, H by auto. reflexivity. Qed.

Lemma noret_low r c C ls A i bs L P :
  enc fields C ls A i c bs L P -> (forall k, A k ANlr -> 2 <= k) ->
  noret c = true -> noret (low_code r c) = true.
Proof.
  intros H. induction H; intros HA Hn; auto; unfold noret in *; simpl in *;
    repeat rewrite andb_true_iff in *.
  - destruct Hn as [H1 H2]. split; [|apply IHenc; auto].
    destruct o; simpl in *; auto. destruct (k - 1) eqn:E; auto. simpl.
    inversion H; subst. specialize (HA _ ltac:(eassumption)). lia.
  - destruct Hn as [H2 H3]. split; [apply IHenc1; auto|apply IHenc2; auto].
  - destruct Hn as [[N1 N2] N3]. repeat split; [apply IHenc1|apply IHenc2|apply IHenc3]; auto.
  - destruct Hn as [[N1 N2] N3]. repeat split; [apply IHenc1|apply IHenc2|apply IHenc3]; auto.
Qed.

Lemma closed_all :
  (forall C ls A o b bo, enc_op fields C ls A o b bo -> forall q C' A',
     1 <= q -> closed q A -> agree q C C' -> allow_le A A' -> mrg q C C' ->
     enc_op fields C' ls A' (low_op q o) b bo) /\
  (forall C ls A i c bs L P, enc fields C ls A i c bs L P -> forall q C' A',
     1 <= q -> closed q A -> agree q C C' -> allow_le A A' -> mrg q C C' ->
     enc fields C' ls A' i (low_code q c) bs L P) /\
  (forall C A rho b m, impl fields C A rho b m -> forall q C' A',
     closed q A -> agree q C C' -> allow_le A A' -> mrg q C C' ->
     map lv_args rho = map snd C -> impl fields C' A' (merge q rho) b m).
Proof.
  assert (LK : forall q (A : allow) k a, 1 <= q -> closed q A -> (k <> 0 -> A k a) -> low q k = k /\ k < q).
  { intros q A k a Hq Hc HA. destruct k; [split; [reflexivity|lia]|].
    destruct (Hc (S k) a) as [H _]; [apply HA; auto|]. rewrite low_le by lia. auto. }
  apply enc_all; intros; cbn [low_op];
    try match goal with
    | HA : ?k <> 0 -> ?A ?k ?a, Hc : closed ?q ?A, Hq : 1 <= ?q |- _ =>
        destruct (LK q A k a Hq Hc HA) as [-> Hk]
    end;
    try (econstructor; eauto; fail).
  - econstructor; eauto. erewrite agree_slot; eauto.
  - econstructor; eauto. erewrite agree_slot; eauto.
  - eapply E_blk; eauto. eapply mrg_args; eauto.
  - eapply E_blk_no; eauto. eapply mrg_args; eauto.
    apply H2; auto using allow_le_refl. intros k a [].
  - destruct (H2 _ _ H0) as [_ [v E]]; discriminate.
  - (* Impl *)
    assert (Hc : closed (S q) (nest A out)) by (eapply closed_nest; eauto).
    assert (HN : forall k, nest A out k ANlr -> 2 <= k).
    { intros k Hk. destruct (Hc _ _ Hk) as [_ [v E]]; discriminate. }
    assert (Hmg : mergeable q rho) by (eapply mrg_mergeable; eauto).
    assert (Hfin : fin = ORet).
    { destruct fin; try contradiction; auto. subst k.
      (* the final non-local return would be encoded *)
      exfalso. clear -H2 HN Hc.
      assert (G : forall C ls A i c bs L P, enc fields C ls A i c bs L P -> forall k, In (IOp (ORetNl k)) c -> A k ANlr).
      { induction 1; intros k' Hin; simpl in Hin; try (destruct Hin as [Hin|Hin]; [try discriminate|eauto]).
        - destruct Hin.
        - inversion Hin; subst. inversion H; subst; auto. }
      assert (A1 := G _ _ _ _ _ _ _ _ H2 (length rho)). destruct (Hc _ _ (A1 ltac:(apply in_or_app; right; left; auto))) as [_ [v E]]; discriminate. }
    subst fin.
    eapply Impl with (body := low_code (S q) body) (fin := ORet); eauto.
    + replace (low_code (S q) body ++ [IOp ORet]) with (low_code (S q) (body ++ [IOp ORet])) by (rewrite low_app; reflexivity).
      apply H3; auto; try lia.
      * apply agree_S; auto.
      * apply nest_le; auto.
      * apply mrg_S; auto.
    + destruct (enc_app_inv _ _ _ _ _ _ _ _ _ _ H2) as (? & ? & ? & ? & ? & ? & _ & _ & _ & E & _).
      eapply noret_low; eauto.
    + change (inl_part (low_code (S q) body) ORet) with (low_code (S q) (inl_part body ORet)).
      eapply block_sem_low; eauto.
    + destruct tr as [[l|t c|i k|? ?]|]; simpl in *; auto.
      * destruct H7 as (v & E1 & -> & _). exists v. auto.
      * destruct H7 as (-> & _ & E). auto.
      * exfalso. destruct H7 as (-> & _ & ->).
        inversion H2; subst. match goal with H : enc_op _ _ _ _ (OFld _ _) _ _ |- _ => inversion H; subst end.
        { match goal with H : _ -> nest _ _ _ AFld |- _ => destruct (Hc _ _ (H ltac:(destruct rho; [destruct Hmg; simpl in *; lia|simpl; lia]))) as [_ [v E]]; discriminate end. }
        { destruct rho; [destruct Hmg; simpl in *; lia|discriminate]. }
        { destruct rho; [destruct Hmg; simpl in *; lia|discriminate]. }
    + rewrite <- H8. replace (low_code (S q) body ++ [IOp ORet]) with (low_code (S q) (body ++ [IOp ORet])) by (rewrite low_app; reflexivity).
      apply typ_low.
    + rewrite <- merge_level_S, body_merge by (apply mergeable_level; auto). apply blks_low. auto.
Qed.
End Closed.
