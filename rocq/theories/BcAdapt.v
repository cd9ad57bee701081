(** Block methods after the block around them was inlined (adapt_after_outer_inlined)
    implement their blocks in the merged environment. *)
From Coq Require Import ZArith Bool String Ascii List Lia.
From Verif Require Import Base LexModel ParseModel BcModel BcInterp BcSpec BcCode BcSim BcEval BcMono.
Import ListNotations.
Open Scope nat_scope.
Open Scope list_scope.

Lemma byte_pre pre x rest : byte_at (pre ++ x :: rest) (length pre) = Ok x.
Proof. unfold byte_at. rewrite nth_pre. auto. Qed.
Lemma byte_pre1 pre x y rest : byte_at (pre ++ x :: y :: rest) (length pre + 1) = Ok y.
Proof. unfold byte_at. rewrite nth_pre1. auto. Qed.
Lemma byte_pre2 pre x y z rest : byte_at (pre ++ x :: y :: z :: rest) (length pre + 2) = Ok z.
Proof. unfold byte_at. rewrite nth_pre2. auto. Qed.
Lemma set_pre pre x rest n : set_byte (pre ++ x :: rest) (length pre) n = pre ++ n :: rest.
Proof. induction pre; simpl; congruence. Qed.
Lemma set_pre1 pre x y rest n : set_byte (pre ++ x :: y :: rest) (length pre + 1) n = pre ++ x :: n :: rest.
Proof. induction pre; simpl; congruence. Qed.
Lemma set_pre2 pre x y z rest n :
  set_byte (pre ++ x :: y :: z :: rest) (length pre + 2) n = pre ++ x :: y :: n :: rest.
Proof. induction pre; simpl; congruence. Qed.
Lemma get_bc_pre pre b rest : get_bc (pre ++ num b :: rest) (length pre) = Ok b.
Proof. unfold get_bc. rewrite byte_pre. simpl. rewrite num_of. auto. Qed.

Lemma last_index_nth s : forall l i, last_index s l = Some i -> nth_error (map snd l) i = Some s.
Proof.
  induction l as [|x l IH]; intros i H; [discriminate|]. simpl in H.
  destruct (last_index s l) as [j|]; [inversion H; subst; simpl; auto|].
  destruct (snd x =? s) eqn:E; [|discriminate]. inversion H; subst. apply Nat.eqb_eq in E. simpl. congruence.
Qed.
Lemma inlined_idx_nth s l i : inlined_local_idx s l = Ok i -> nth_error (map snd l) i = Some s.
Proof. unfold inlined_local_idx. destruct (last_index s l) eqn:E; [|discriminate]. intros H. inversion H; subst. apply last_index_nth. auto. Qed.
Lemma get_source_nth l i s : get_source l i = Ok s -> nth_error (map snd l) i = Some s.
Proof.
  unfold get_source. revert i. induction l as [|x l IH]; intros [|i] H; simpl in *; try discriminate; auto.
  congruence.
Qed.
Lemma set_lit_same : forall ls k (l x : literal), nth_error ls k = Some x -> nth_error (set_lit ls k l) k = Some l.
Proof. induction ls as [|y ls IH]; intros [|k] l x H; simpl in *; try discriminate; auto. eapply IH; eauto. Qed.
Lemma set_lit_other : forall ls k j (l : literal), j <> k -> nth_error (set_lit ls k l) j = nth_error ls j.
Proof. induction ls as [|y ls IH]; intros [|k] [|j] l H; simpl in *; auto; try congruence. Qed.

Definition rooted (A : allow) (C : cx) : Prop :=
  forall k a, A k a -> (a = AFld \/ a = ANlr) -> S k = length C.
Lemma rooted_nest A C o na x : rooted A C -> out_ok na o -> rooted (nest A o) (x :: C).
Proof.
  intros H Ho [|k] a Ha Hb; simpl in Ha.
  - destruct (Ho _ Ha) as (v & -> & _). destruct Hb; discriminate.
  - simpl. rewrite (H k a); auto.
Qed.

(** Level [r] of [C], with the locals [old], becomes part of the level around it, which has
    the locals [new] then; what the code may touch moves along. *)
Record adapts (r : nat) (old new : list local) (C C' : cx) (A A' : allow) (marks : list nat) : Prop := {
  ad_mrg : mrg r C C';
  ad_old : nth_error (map fst C) r = Some (map snd old);
  ad_new : nth_error (map fst C') r = Some (map snd new);
  ad_in : agree r C C';
  ad_out : forall k i d, r < k -> cslot C k i = Some d -> cslot C' (k - 1) i = Some d;
  ad_root : rooted A C;
  ad_noarg : forall v, A r (AVar v) -> exists d, v = VLoc d;
  ad_lo : forall k a, k < r -> A k a -> A' k a;
  ad_hi : forall k a, r < k -> A k a -> A' (k - 1) a;
  ad_marks : forall d, In d marks -> A r (AVar (VLoc d)) -> A' r (AVar (VLoc d)) }.

Lemma adapts_S r old new C C' A A' marks x o na :
  adapts r old new C C' A A' marks -> out_ok na o ->
  adapts (S r) old new (x :: C) (x :: C') (nest A o) (nest A' o) marks.
Proof.
  intros [H1 H2 H3 H4 H5 H6 H7 H8 H9 H10] Ho. split; auto.
  - apply mrg_S; auto.
  - apply agree_S; auto.
  - intros [|k] i d Hk; [lia|]. rewrite cslot_S. intros H. simpl. rewrite Nat.sub_0_r.
    destruct k; [lia|]. specialize (H5 (S k) i d). simpl in H5. rewrite Nat.sub_0_r in H5.
    rewrite cslot_S. apply H5; auto. lia.
  - eapply rooted_nest; eauto.
  - intros [|k] a Hk; simpl; auto. apply H8. lia.
  - intros [|k] a Hk; [lia|]. simpl. rewrite Nat.sub_0_r. destruct k; [lia|].
    intros Ha. specialize (H9 (S k) a). simpl in *. rewrite Nat.sub_0_r in H9. apply H9; auto. lia.
Qed.
Lemma adapts_none r old new C C' A A' marks :
  adapts r old new C C' A A' marks -> forall mk, adapts r old new C C' none none mk.
Proof. intros [H1 H2 H3 H4 H5 H6 H7 H8 H9 H10] mk. split; auto; try (intros k a []); try (intros k a _ []); try (intros k []). Qed.

Definition subs_of (r : nat) (old new : list local) (ls : list literal) : list (res (literal * list nat)) :=
  map (fun l => match l with
                | LM m => p <- adapt (S r) old new m ;; Ok (LM (fst p), snd p)
                | _ => Err AttributeError
                end) ls.
Lemma subs_nth r old new ls k l mk :
  nth_error (subs_of r old new ls) k = Some (Ok (l, mk)) ->
  exists m m', nth_error ls k = Some (LM m) /\ adapt (S r) old new m = Ok (m', mk) /\ l = LM m'.
Proof.
  unfold subs_of. rewrite nth_error_map. destruct (nth_error ls k) as [[| |m]|]; try discriminate.
  simpl. destruct (adapt (S r) old new m) as [[m' mk']|] eqn:E; try discriminate.
  simpl. intros H. inversion H; subst. eauto 6.
Qed.

(** Literals on the way: each is the original one or the adapted one. *)
Definition lev (subs : list (res (literal * list nat))) (ls lsx : list literal) : Prop :=
  forall k, nth_error lsx k = nth_error ls k \/
    exists l mk, nth_error subs k = Some (Ok (l, mk)) /\ nth_error lsx k = Some l.
Definition adv (subs : list (res (literal * list nat))) (lsx lsx' : list literal) : Prop :=
  forall k l mk, nth_error subs k = Some (Ok (l, mk)) -> nth_error lsx k = Some l ->
    nth_error lsx' k = Some l.
Lemma adv_refl subs l : adv subs l l.
Proof. intros k x mk; auto. Qed.
Lemma adv_trans subs l l1 l2 : adv subs l l1 -> adv subs l1 l2 -> adv subs l l2.
Proof. intros H1 H2 k x mk Hs H. eauto. Qed.
Lemma lev_plain r old new ls lsx k l :
  lev (subs_of r old new ls) ls lsx -> nth_error ls k = Some l ->
  (forall m, l <> LM m) -> nth_error lsx k = Some l.
Proof.
  intros H Hn Hp. destruct (H k) as [E | (l' & mk & E & _)]; [congruence|].
  apply subs_nth in E. destruct E as (m & m' & E & _). exfalso. apply (Hp m). congruence.
Qed.

Section Adapt.
Variable fields : list text.

Lemma enc_op_head C ls A o b bo : enc_op fields C ls A o b bo ->
  exists t, bo = num b :: t /\ length bo = blen b.
Proof.
  intros H. inversion H; subst; eexists; split; try reflexivity.
  simpl. destruct (nargs t) as [|[|[|[|]]]]; reflexivity.
Qed.

Definition P_op (C : cx) (ls : list literal) (A : allow) (o : op) (b : bc) (bo : list nat) : Prop :=
  forall r old new lsx marks pre post bytes' lsx' marks', 1 <= r ->
  lev (subs_of r old new ls) ls lsx ->
  adapt_bc r old new (subs_of r old new ls) (length pre) b (pre ++ bo ++ post) lsx marks
    = Ok (bytes', lsx', marks') ->
  exists bo', bytes' = pre ++ bo' ++ post /\ length bo' = length bo /\
    lev (subs_of r old new ls) ls lsx' /\ adv (subs_of r old new ls) lsx lsx' /\ incl marks marks' /\
    forall C' A' lsf mf, lev (subs_of r old new ls) ls lsf -> adv (subs_of r old new ls) lsx' lsf ->
      incl marks' mf -> adapts r old new C C' A A' mf ->
      enc_op fields C' lsf A' (low_op r o) b bo'.
Definition P_enc (C : cx) (ls : list literal) (A : allow) (i : nat) (c : list item) (bs : list nat)
  (L P : list (nat * nat)) : Prop :=
  forall r old new lsx marks pre post F fuel, 1 <= r -> length pre = i ->
  lev (subs_of r old new ls) ls lsx ->
  adapt_loop fuel r old new (subs_of r old new ls) i (pre ++ bs ++ post) lsx marks = Ok F ->
  exists fuel' bs' lsx' marks', length bs' = length bs /\
    adapt_loop fuel' r old new (subs_of r old new ls) (i + length bs) (pre ++ bs' ++ post) lsx' marks' = Ok F /\
    lev (subs_of r old new ls) ls lsx' /\ adv (subs_of r old new ls) lsx lsx' /\ incl marks marks' /\
    forall C' A' lsf mf, lev (subs_of r old new ls) ls lsf -> adv (subs_of r old new ls) lsx' lsf ->
      incl marks' mf -> adapts r old new C C' A A' mf ->
      enc fields C' lsf A' i (low_code r c) bs' L P.
Definition P_impl (C : cx) (A : allow) (rho : env) (b : src) (m : meth) : Prop :=
  forall q old new C' A' m' marks, adapts q old new C C' A A' marks ->
  map lv_args rho = map snd C -> adapt (S q) old new m = Ok (m', marks) ->
  impl fields C' A' (merge q rho) b m'.

(** Operations without a context. *)
Lemma op_plain C ls (A : allow) o b bo :
  no_context b = true ->
  (forall r old new C' A' lsf mf, lev (subs_of r old new ls) ls lsf ->
     1 <= r -> adapts r old new C C' A A' mf -> enc_op fields C' lsf A' (low_op r o) b bo) ->
  P_op C ls A o b bo.
Proof.
  intros Hn H r old new lsx marks pre post bytes' lsx' marks' Hr Hl E.
  unfold adapt_bc in E. rewrite Hn in E. inversion E; subst.
  exists bo. repeat split; auto using adv_refl, incl_refl. intros. eapply H; eauto.
Qed.

(** Operations with a context level as second operand. *)
Lemma op_patch C ls (A : allow) o b i k (a : nat -> op) acc0 :
  no_context b = false -> is_patchable b = true ->
  o = a k -> (forall r k, low_op r (a k) = a (low r k)) ->
  (k <> 0 -> A k acc0) ->
  (acc0 = AFld \/ exists j, acc0 = AVar (VArg j)) ->
  (forall C' ls' (A' : allow) k, (k <> 0 -> A' k acc0) -> enc_op fields C' ls' A' (a k) b [num b; i; k]) ->
  P_op C ls A o b [num b; i; k].
Proof.
  intros Hn Hp -> Hlow HA Hacc He r old new lsx marks pre post bytes' lsx' marks' Hr Hl E.
  unfold adapt_bc in E. rewrite Hn, Hp in E. cbn [app] in E.
  rewrite byte_pre2 in E. cbn [Base.bind] in E.
  exists [num b; i; low r k]. rewrite Hlow.
  assert (G : forall C' A' mf, adapts r old new C C' A A' mf -> low r k <> 0 -> A' (low r k) acc0).
  { intros C' A' mf Had Hk. assert (k <> 0) by (intros ->; apply Hk; reflexivity).
    specialize (HA H). destruct (lt_eq_lt_dec k r) as [[Hlt| ->]|Hlt].
    - rewrite low_le by lia. apply (ad_lo _ _ _ _ _ _ _ _ Had); auto.
    - exfalso. destruct Hacc as [-> | (j & ->)].
      + pose proof (ad_root _ _ _ _ _ _ _ _ Had _ _ HA (or_introl eq_refl)) as E1.
        destruct (ad_mrg _ _ _ _ _ _ _ _ Had) as [E2 _]. lia.
      + destruct (ad_noarg _ _ _ _ _ _ _ _ Had _ HA) as (d & Ed). discriminate.
    - rewrite low_gt by lia. apply (ad_hi _ _ _ _ _ _ _ _ Had); auto. }
  assert (EB : bytes' = pre ++ [num b; i; low r k] ++ post).
  { cbn [app]. destruct (r <? k) eqn:Er; inversion E; subst.
    - rewrite set_pre2. apply Nat.ltb_lt in Er. rewrite low_gt by lia. auto.
    - apply Nat.ltb_ge in Er. rewrite low_le by lia. auto. }
  assert (lsx' = lsx /\ marks' = marks) as [-> ->] by (inversion E; auto).
  repeat split; auto using adv_refl, incl_refl. intros. apply He. eapply G; eauto.
Qed.

(** push_local and pop_local *)
Lemma op_local C ls (A : allow) o b i k d (a : nat -> nat -> op) :
  (b = B_push_local \/ b = B_pop_local) ->
  o = a k d -> (forall r k, low_op r (a k d) = a (low r k) d) ->
  cslot C k i = Some d -> (k <> 0 -> A k (AVar (VLoc d))) ->
  (forall C' ls' (A' : allow) k i, cslot C' k i = Some d -> (k <> 0 -> A' k (AVar (VLoc d))) ->
     enc_op fields C' ls' A' (a k d) b [num b; i; k]) ->
  P_op C ls A o b [num b; i; k].
Proof.
  intros Hb -> Hlow Hs HA He r old new lsx marks pre post bytes' lsx' marks' Hr Hl E.
  assert (E' : (if k =? r then
          s <- get_source old i ;;
          k' <- inlined_local_idx s new ;;
          if k' <=? 255 then Ok (pre ++ [num b; k'; k] ++ post, lsx, s :: marks)
          else Err AssertionError
        else Ok (if r <? k then pre ++ [num b; i; k - 1] ++ post
                 else pre ++ [num b; i; k] ++ post, lsx, marks)) = Ok (bytes', lsx', marks')).
  { rewrite <- E. destruct Hb as [-> | ->]; unfold adapt_bc; cbn [app];
      (match goal with |- context [no_context ?b] => change (no_context b) with false end);
      (match goal with |- context [is_patchable ?b] => change (is_patchable b) with false end);
      rewrite byte_pre2, byte_pre1; cbn [Base.bind]; rewrite set_pre2;
      destruct (k =? r); auto; destruct (get_source old i); cbn [Base.bind]; auto;
      destruct (inlined_local_idx a0 new); cbn [Base.bind]; auto; rewrite set_pre1; auto. }
  clear E. rewrite Hlow. destruct (k =? r) eqn:Ek.
  - apply Nat.eqb_eq in Ek. subst k.
    destruct (get_source old i) as [s|] eqn:Es; [|discriminate]. cbn [Base.bind] in E'.
    destruct (inlined_local_idx s new) as [k'|] eqn:Ei; [|discriminate]. cbn [Base.bind] in E'.
    destruct (k' <=? 255); [|discriminate]. inversion E'; subst. clear E'.
    exists [num b; k'; r]. repeat split; auto using adv_refl.
    { apply incl_tl, incl_refl. }
    intros C' A' lsf mf Hf _ Hm Had. rewrite low_le by lia.
    apply get_source_nth in Es. apply inlined_idx_nth in Ei.
    assert (s = d).
    { unfold cslot, slot in Hs. rewrite (ad_old _ _ _ _ _ _ _ _ Had) in Hs. congruence. }
    subst s. apply He.
    + unfold cslot, slot. rewrite (ad_new _ _ _ _ _ _ _ _ Had). auto.
    + intros Hk. apply (ad_marks _ _ _ _ _ _ _ _ Had); auto. apply Hm. left; auto.
  - apply Nat.eqb_neq in Ek. inversion E'; subst. clear E'.
    exists [num b; i; low r k]. repeat split; auto using adv_refl, incl_refl.
    { destruct (r <? k) eqn:Er; [apply Nat.ltb_lt in Er; rewrite low_gt by lia; auto
                                |apply Nat.ltb_ge in Er; rewrite low_le by lia; auto]. }
    intros C' A' lsf mf Hf _ Hm Had. apply He.
    + destruct (r <? k) eqn:Er.
      * apply Nat.ltb_lt in Er. rewrite low_gt by lia. apply (ad_out _ _ _ _ _ _ _ _ Had); auto.
      * apply Nat.ltb_ge in Er. rewrite low_le by lia.
        rewrite (agree_slot _ _ _ _ _ (ad_in _ _ _ _ _ _ _ _ Had)) by lia. auto.
    + intros Hk. destruct (r <? k) eqn:Er.
      * apply Nat.ltb_lt in Er. rewrite low_gt in * by lia. apply (ad_hi _ _ _ _ _ _ _ _ Had); auto. apply HA. lia.
      * apply Nat.ltb_ge in Er. rewrite low_le in * by lia.
        apply (ad_lo _ _ _ _ _ _ _ _ Had); auto. lia.
Qed.
Lemma lev_set subs ls lsx k l mk : lev subs ls lsx -> nth_error subs k = Some (Ok (l, mk)) ->
  length subs = length ls ->
  lev subs ls (set_lit lsx k l) /\ adv subs lsx (set_lit lsx k l) /\ nth_error (set_lit lsx k l) k = Some l.
Proof.
  intros Hl Hs Hlen.
  assert (Hx : exists x, nth_error lsx k = Some x).
  { assert (k < length ls) by (rewrite <- Hlen; apply nth_error_Some; congruence).
    destruct (Hl k) as [E | (l' & mk' & _ & E)]; [|eauto].
    destruct (nth_error ls k) eqn:E2; [eauto|]. apply nth_error_None in E2. lia. }
  destruct Hx as [x Hx]. pose proof (set_lit_same _ _ l _ Hx) as Hk.
  repeat split; auto.
  - intros j. destruct (Nat.eq_dec j k) as [->|Hj]; [right; eauto|]. rewrite set_lit_other by auto. apply Hl.
  - intros j l' mk' Hs' Hn. destruct (Nat.eq_dec j k) as [->|Hj]; [congruence|].
    rewrite set_lit_other by auto. auto.
Qed.

Lemma jump_no_ctx b off j : enc_jump b off j -> (exists k p, b = jump_bc k p) \/ b = B_jump \/ b = B_jump_backward ->
  exists b' x y, j = [num b'; x; y] /\ no_context b' = true /\ blen b' = 3.
Proof.
  intros [-> | (x & y & -> & _)] H.
  - exists b, off, 0. split; auto. destruct H as [(k & p & ->) | [-> | ->]]; [destruct k, p|..]; split; reflexivity.
  - destruct H as [(k & p & ->) | [-> | ->]]; [destruct k, p|..];
      match goal with |- context [num ?b + NUM_SINGLE] =>
        let n := eval vm_compute in (of_num (num b + NUM_SINGLE)) in
        match n with Some ?b' => exists b', x, y end end; repeat split; reflexivity.
Qed.

Lemma adapt_step fuel r old new subs pre b t post lsx marks F :
  adapt_loop fuel r old new subs (length pre) (pre ++ (num b :: t) ++ post) lsx marks = Ok F ->
  exists fuel' bytes' lsx' marks',
    adapt_bc r old new subs (length pre) b (pre ++ (num b :: t) ++ post) lsx marks = Ok (bytes', lsx', marks') /\
    adapt_loop fuel' r old new subs (length pre + blen b) bytes' lsx' marks' = Ok F.
Proof.
  intros H. destruct fuel as [|fuel]; [discriminate|]. cbn [adapt_loop] in H.
  destruct (length (pre ++ (num b :: t) ++ post) <=? length pre) eqn:El.
  { apply Nat.leb_le in El. rewrite app_length in El. simpl in El. lia. }
  cbn [app] in *. rewrite get_bc_pre in H. cbn [Base.bind] in H.
  destruct (adapt_bc _ _ _ _ _ _ _ _ _) as [[[bytes' lsx'] marks']|]; [|discriminate].
  cbn [Base.bind] in H. eauto 6.
Qed.

Lemma adapt_jump b off j : enc_jump b off j -> (exists k p, b = jump_bc k p) \/ b = B_jump \/ b = B_jump_backward ->
  forall fuel r old new subs pre post lsx marks F,
  adapt_loop fuel r old new subs (length pre) (pre ++ j ++ post) lsx marks = Ok F ->
  exists fuel', adapt_loop fuel' r old new subs (length (pre ++ j)) ((pre ++ j) ++ post) lsx marks = Ok F.
Proof.
  intros Hj Hb fuel r old new subs pre post lsx marks F H.
  destruct (jump_no_ctx _ _ _ Hj Hb) as (b' & x & y & -> & Hn & Hlen).
  apply (adapt_step fuel r old new subs pre b' [x; y]) in H.
  destruct H as (fuel' & bytes' & lsx' & marks' & E1 & E2).
  unfold adapt_bc in E1. rewrite Hn in E1. inversion E1; subst. rewrite Hlen in E2.
  exists fuel'. rewrite app_length, <- app_assoc. exact E2.
Qed.

Lemma adapt_all :
  (forall C ls A o b bo, enc_op fields C ls A o b bo -> P_op C ls A o b bo) /\
  (forall C ls A i c bs L P, enc fields C ls A i c bs L P -> P_enc C ls A i c bs L P) /\
  (forall C A rho b m, impl fields C A rho b m -> P_impl C A rho b m).
Proof.
  apply enc_all; intros;
    try (apply op_plain; [reflexivity|]; intros; cbn [low_op]; econstructor; eauto;
         try (eapply lev_plain; eauto; intros m Em; subst; discriminate); fail).
  - (* push_local *) eapply op_local with (a := OLoc); eauto. intros; econstructor; eauto.
  - (* pop_local *) eapply op_local with (a := OSetLoc); eauto. intros; econstructor; eauto.
  - eapply op_patch with (a := fun k => OArg k i); eauto; try reflexivity. intros; econstructor; eauto.
  - eapply op_patch with (a := fun k => OSetArg k i); eauto; try reflexivity. intros; econstructor; eauto.
  - eapply op_patch with (a := fun k => OFld k i) (acc0 := AFld); eauto; try reflexivity. intros; econstructor; eauto.
  - intros r old new lsx marks pre post bytes' lsx' marks' Hr Hl E; discriminate.
  - intros r old new lsx marks pre post bytes' lsx' marks' Hr Hl E; discriminate.
  - eapply op_patch with (a := fun k => OSetFld k i) (acc0 := AFld); eauto; try reflexivity. intros; econstructor; eauto.
  - intros r old new lsx marks pre post bytes' lsx' marks' Hr Hl E; discriminate.
  - intros r old new lsx marks pre post bytes' lsx' marks' Hr Hl E; discriminate.
  - eapply op_patch with (a := fun k => OIncFld k i) (acc0 := AFld); eauto; try reflexivity. intros; econstructor; eauto.
  - eapply op_patch with (a := fun k => OIncFldPush k i) (acc0 := AFld); eauto; try reflexivity. intros; econstructor; eauto.
  - (* push_block *)
    intros r old new lsx marks pre post bytes' lsx' marks' Hr Hl E.
    unfold adapt_bc in E. change (no_context B_push_block) with false in E.
    change (is_patchable B_push_block) with false in E. cbn [app] in E. rewrite byte_pre1 in E.
    cbn [Base.bind] in E.
    destruct (nth_error (subs_of r old new ls) i) as [[[l mk]|]|] eqn:Es; try discriminate.
    cbn [Base.bind fst snd] in E. inversion E; subst. clear E.
    destruct (lev_set _ _ _ _ _ _ Hl Es ltac:(unfold subs_of; apply map_length)) as (L1 & L2 & L3).
    exists [num B_push_block; i]. repeat split; auto.
    { apply incl_appr, incl_refl. }
    intros C' A' lsf mf Hf Hadv Hm Had.
    apply subs_nth in Es as Es'. destruct Es' as (m0 & m' & E1 & E2 & ->).
    assert (m0 = m) by congruence. subst m0.
    cbn [low_op]. eapply E_blk.
    + eapply Hadv; eauto.
    + eapply mrg_args; eauto. apply Had.
    + eapply (H2 r old new C' A' m' mk); auto. destruct Had as [D1 D2 D3 D4 D5 D6 D7 D8 D9 D10]. split; auto.
      intros d Hd. apply D10. apply Hm. apply in_or_app. auto.
  - (* push_block_no_ctx *)
    apply op_plain; [reflexivity|]. intros r old new C' A' lsf mf Hf Hr Had. cbn [low_op].
    destruct (Hf i) as [E | (l & mk & E1 & E2)].
    + eapply E_blk_no; [rewrite E; exact H|eapply mrg_args; eauto; apply Had|].
      eapply (proj2 (proj2 (closed_all fields))); eauto using allow_le_refl.
      * intros k a [].
      * intros k Hk. apply (ad_in _ _ _ _ _ _ _ _ Had). auto.
      * apply Had.
    + apply subs_nth in E1. destruct E1 as (m0 & m' & E1 & E3 & ->).
      assert (m0 = m) by congruence. subst m0.
      eapply E_blk_no; [eauto|eapply mrg_args; eauto; apply Had|].
      eapply H2; eauto. eapply adapts_none; eauto.
  - (* send *)
    apply op_plain; [destruct (nargs t) as [|[|[|[|]]]]; reflexivity|]. intros. cbn [low_op]. econstructor.
    eapply lev_plain; eauto. intros m; discriminate.
  - (* return_non_local *)
    intros r old new lsx marks pre post bytes' lsx' marks' Hr Hl E.
    unfold adapt_bc in E. change (no_context B_return_non_local) with false in E.
    change (is_patchable B_return_non_local) with false in E. cbn [app] in E. rewrite byte_pre1 in E.
    cbn [Base.bind] in E. destruct k as [|k]; [discriminate|]. cbn [pred_ctx Base.bind] in E.
    rewrite set_pre1 in E. inversion E; subst.
    exists [num B_return_non_local; k]. repeat split; auto using adv_refl, incl_refl.
    intros C' A' lsf mf Hf _ Hm Had.
    pose proof (ad_root _ _ _ _ _ _ _ _ Had _ _ H0 (or_intror eq_refl)) as E1.
    destruct (ad_mrg _ _ _ _ _ _ _ _ Had) as [E2 _].
    cbn [low_op]. replace (S k - 1) with k by lia. destruct k as [|k]; [lia|].
    constructor; [lia|]. replace (S k) with (S (S k) - 1) by lia. apply (ad_hi _ _ _ _ _ _ _ _ Had); auto. lia.
  - intros r old new lsx marks pre post bytes' lsx' marks' Hr Hl E; discriminate.
  - (* En *)
    intros r old new lsx marks pre post F fuel Hr Hi Hl E.
    exists fuel, [], lsx, marks. cbn [length app]. rewrite Nat.add_0_r.
    repeat split; auto using adv_refl, incl_refl. intros. constructor.
  - (* Eo *)
    intros r old new lsx marks pre post F fuel Hr Hi Hl E. subst i.
    destruct (enc_op_head _ _ _ _ _ _ H) as (t & Hbo & Hlen). rewrite <- app_assoc in E.
    rewrite Hbo in E. apply adapt_step in E. destruct E as (fuel1 & bytes1 & lsx1 & marks1 & E1 & E2).
    rewrite <- Hbo in E1.
    apply H0 in E1; auto. destruct E1 as (bo' & -> & Hlen' & L1 & A1 & I1 & G1).
    rewrite app_assoc in E2. rewrite <- Hlen in E2.
    apply H2 in E2; auto; [|rewrite app_length, Hlen'; auto].
    destruct E2 as (fuel2 & bs' & lsx2 & marks2 & Hlen2 & E2 & L2 & A2 & I2 & G2).
    exists fuel2, (bo' ++ bs'), lsx2, marks2. rewrite !app_length, Hlen', Hlen2.
    repeat split; auto.
    + rewrite <- !app_assoc in *. rewrite Nat.add_assoc. exact E2.
    + eapply adv_trans; eauto.
    + eapply incl_tran; eauto.
    + intros C' A' lsf mf Hf Ha Hm Had. cbn [low_code map low_item].
      econstructor; [eapply (G1 C' A' lsf mf); eauto using adv_trans, incl_tran|].
      rewrite Hlen'. eapply (G2 C' A' lsf mf); eauto.
  - (* Et *)
    intros r old new lsx marks pre post F fuel Hr Hi Hl E. subst i.
    assert (Lj : length j = 3) by (eapply enc_jump_len; eauto).
    rewrite <- !app_assoc in E. eapply adapt_jump in E; eauto. destruct E as (fuel1 & E).
    rewrite app_length, Lj in E.
    apply H0 in E; auto; [|rewrite app_length, Lj; auto].
    destruct E as (fuel2 & bb' & lsx1 & marks1 & Hlen1 & E & L1 & A1 & I1 & G1).
    rewrite app_assoc in E. apply H3 in E; auto; [|rewrite !app_length, Lj, Hlen1; lia].
    destruct E as (fuel3 & bs' & lsx2 & marks2 & Hlen2 & E & L2 & A2 & I2 & G2).
    exists fuel3, (j ++ bb' ++ bs'), lsx2, marks2. rewrite !app_length, Lj, Hlen1, Hlen2.
    repeat split; auto.
    + rewrite <- !app_assoc in *. match goal with |- adapt_loop _ _ _ _ _ ?x _ _ _ = _ => match type of E with adapt_loop _ _ _ _ _ ?y _ _ _ = _ => replace x with y by lia end end. exact E.
    + eapply adv_trans; eauto.
    + eapply incl_tran; eauto.
    + intros C' A' lsf mf Hf Ha Hm Had. cbn [low_code map low_item].
      econstructor; [eapply (G1 C' A' lsf mf); eauto using adv_trans, incl_tran| |].
      * rewrite Hlen1. auto.
      * rewrite Hlen1. eapply (G2 C' A' lsf mf); eauto.
  - (* Ee *)
    intros r old new lsx marks pre post F fuel Hr Hi Hl E. subst i.
    assert (Lj1 : length j1 = 3) by (eapply enc_jump_len; eauto).
    assert (Lj2 : length j2 = 3) by (eapply enc_jump_len; eauto).
    rewrite <- !app_assoc in E. eapply adapt_jump in E; eauto. destruct E as (fuel1 & E).
    rewrite app_length, Lj1 in E.
    apply H0 in E; auto; [|rewrite app_length, Lj1; auto].
    destruct E as (fuel2 & bb1' & lsx1 & marks1 & Hlen1 & E & L1' & A1 & I1 & G1).
    rewrite app_assoc in E.
    replace (length pre + 3 + length bb1) with (length ((pre ++ j1) ++ bb1')) in E by (rewrite !app_length, Lj1, Hlen1; lia).
    eapply adapt_jump in E; eauto. destruct E as (fuel3 & E).
    replace (length (((pre ++ j1) ++ bb1') ++ j2)) with (length pre + 3 + length bb1 + 3) in E by (rewrite !app_length, Lj1, Lj2, Hlen1; lia).
    apply H3 in E; auto; [|rewrite !app_length, Lj1, Lj2, Hlen1; lia].
    destruct E as (fuel4 & bb2' & lsx2 & marks2 & Hlen2 & E & L2' & A2 & I2 & G2).
    rewrite app_assoc in E. apply H7 in E; auto; [|rewrite !app_length, Lj1, Lj2, Hlen1, Hlen2; lia].
    destruct E as (fuel5 & bs' & lsx3 & marks3 & Hlen3 & E & L3' & A3 & I3 & G3).
    exists fuel5, (j1 ++ bb1' ++ j2 ++ bb2' ++ bs'), lsx3, marks3. rewrite !app_length, Lj1, Lj2, Hlen1, Hlen2, Hlen3.
    repeat split; auto.
    + rewrite <- !app_assoc in *. match goal with |- adapt_loop _ _ _ _ _ ?x _ _ _ = _ => match type of E with adapt_loop _ _ _ _ _ ?y _ _ _ = _ => replace x with y by lia end end. exact E.
    + eauto using adv_trans.
    + eauto using incl_tran.
    + intros C' A' lsf mf Hf Ha Hm Had. cbn [low_code map low_item].
      econstructor; [eapply (G1 C' A' lsf mf); eauto using adv_trans, incl_tran| | | | |]; rewrite ?Hlen1, ?Hlen2; auto.
      * eapply (G2 C' A' lsf mf); eauto using adv_trans, incl_tran.
      * intros ->. apply H5. destruct bb2; auto; discriminate.
      * eapply (G3 C' A' lsf mf); eauto.
  - (* El *)
    intros r old new lsx marks pre post F fuel Hr Hi Hl E. subst i.
    assert (Lj1 : length j1 = 3) by (eapply enc_jump_len; eauto).
    assert (Lj2 : length j2 = 3) by (eapply enc_jump_len; eauto).
    rewrite <- !app_assoc in E.
    apply H0 in E; auto.
    destruct E as (fuel1 & bt' & lsx1 & marks1 & Hlen1 & E & L1' & A1 & I1 & G1).
    rewrite app_assoc in E.
    replace (length pre + length bt) with (length (pre ++ bt')) in E by (rewrite !app_length, Hlen1; lia).
    eapply adapt_jump in E; eauto. destruct E as (fuel2 & E).
    replace (length ((pre ++ bt') ++ j1)) with (length pre + length bt + 3) in E by (rewrite !app_length, Lj1, Hlen1; lia).
    apply H3 in E; auto; [|rewrite !app_length, Lj1, Hlen1; lia].
    destruct E as (fuel3 & bb' & lsx2 & marks2 & Hlen2 & E & L2' & A2 & I2 & G2).
    rewrite app_assoc in E.
    replace (length pre + length bt + 3 + length bb) with (length (((pre ++ bt') ++ j1) ++ bb')) in E by (rewrite !app_length, Lj1, Hlen1, Hlen2; lia).
    eapply adapt_jump in E; eauto. destruct E as (fuel4 & E).
    replace (length ((((pre ++ bt') ++ j1) ++ bb') ++ j2)) with (length pre + length bt + 3 + length bb + 3) in E by (rewrite !app_length, Lj1, Lj2, Hlen1, Hlen2; lia).
    apply H6 in E; auto; [|rewrite !app_length, Lj1, Lj2, Hlen1, Hlen2; lia].
    destruct E as (fuel5 & bs' & lsx3 & marks3 & Hlen3 & E & L3' & A3 & I3 & G3).
    exists fuel5, (bt' ++ j1 ++ bb' ++ j2 ++ bs'), lsx3, marks3. rewrite !app_length, Lj1, Lj2, Hlen1, Hlen2, Hlen3.
    repeat split; auto.
    + rewrite <- !app_assoc in *. match goal with |- adapt_loop _ _ _ _ _ ?x _ _ _ = _ => match type of E with adapt_loop _ _ _ _ _ ?y _ _ _ = _ => replace x with y by lia end end. exact E.
    + eauto using adv_trans.
    + eauto using incl_tran.
    + intros C' A' lsf mf Hf Ha Hm Had. cbn [low_code map low_item].
      replace (length pre + length bt + 3 + length bb) with (length pre + length bt' + 3 + length bb') by lia.
      econstructor; [eapply (G1 C' A' lsf mf); eauto using adv_trans, incl_tran| | | |]; rewrite ?Hlen1, ?Hlen2; auto.
      * eapply (G2 C' A' lsf mf); eauto using adv_trans, incl_tran.
      * eapply (G3 C' A' lsf mf); eauto.
  - (* Impl *)
    intros q old new C' A' m' marks Had Hargs E. cbn [adapt] in E.
    destruct tr as [tr|]; [discriminate|].
    change (map _ lits) with (subs_of (S q) old new lits) in E.
    destruct (adapt_loop _ _ _ _ _ _ _ _ _) as [[[bytes' lits'] marks']|] eqn:El; [|discriminate].
    cbn [Base.bind] in E. inversion E; subst. clear E.
    rewrite <- (app_nil_r bytes) in El at 2. change (bytes ++ []) with ([] ++ bytes ++ []) in El.
    apply H3 in El; auto; [|lia|intros k; auto].
    destruct El as (fuel & bs' & lsx & mks & Hlen & El & L1 & A1 & I1 & G1).
    assert (EF : (bs', lsx, mks) = (bytes', lits', marks)).
    { destruct fuel; [discriminate|]. cbn [adapt_loop app] in El. rewrite app_nil_r in El.
      cbn [Nat.add] in El. rewrite <- Hlen, Nat.leb_refl in El. congruence. }
    inversion EF; subst bs' lsx mks. clear EF El.
    assert (Had' := adapts_S _ _ _ _ _ _ _ _ (map snd locals, t_block_self :: ps) _ _ Had H1).
    specialize (G1 _ _ lits' marks L1 (adv_refl _ _) (incl_refl _) Had').
    assert (Hmg : mergeable q rho) by (eapply mrg_mergeable; eauto; apply Had).
    assert (HN : forall k, nest A out k ANlr -> 2 <= k).
    { intros k Hk. pose proof (ad_root _ _ _ _ _ _ _ _ Had' _ _ Hk (or_intror eq_refl)) as E1.
      destruct (ad_mrg _ _ _ _ _ _ _ _ Had') as [E2 _]. simpl in *. lia. }
    assert (HF : match fin with ORet => True | ORetNl k => 2 <= k | _ => False end).
    { destruct fin; auto. subst k. destruct Hmg. lia. }
    assert (HF' : [IOp (low_op (S q) fin)] = low_code (S q) [IOp fin]) by reflexivity.
    eapply Impl with (body := low_code (S q) body) (fin := low_op (S q) fin); eauto.
    + rewrite HF', <- low_app. exact G1.
    + destruct (enc_app_inv _ _ _ _ _ _ _ _ _ _ H2) as (? & ? & ? & ? & ? & ? & _ & _ & _ & Eb & _).
      eapply noret_low; eauto.
    + destruct fin; cbn [low_op]; auto. subst k. destruct Hmg as [Hq _]. rewrite merge_length by auto.
      destruct (length rho - 1) eqn:E1; [lia|]. auto.
    + rewrite inl_part_low by auto. eapply block_sem_low; eauto.
    + rewrite HF', <- low_app, typ_low. eauto.
    + rewrite <- merge_level_S, body_merge by (apply mergeable_level; auto). apply blks_low. auto.
Qed.
Lemma adapt_impl C A rho b m q old new C' A' m' marks :
  impl fields C A rho b m -> adapts q old new C C' A A' marks ->
  map lv_args rho = map snd C -> adapt (S q) old new m = Ok (m', marks) ->
  impl fields C' A' (merge q rho) b m'.
Proof. intros H. eapply (proj2 (proj2 adapt_all)); eauto. Qed.
Lemma closed_impl C rho b m q C' :
  impl fields C none rho b m -> agree q C C' -> mrg q C C' -> map lv_args rho = map snd C ->
  impl fields C' none (merge q rho) b m.
Proof.
  intros. eapply (proj2 (proj2 (closed_all fields))); eauto using allow_le_refl. intros k a [].
Qed.
End Adapt.
