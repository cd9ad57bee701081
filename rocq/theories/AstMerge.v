(** Nodes when a block is inlined: adapting the node of the block's statements gives the node
    these statements have in the activation around the block. *)
From Coq Require Import ZArith Bool String Ascii List Lia.
From Verif Require Import Base LexModel ParseModel BcModel BcInterp BcSpec BcCode BcEval AstModel AstSpec AstNode.
Import ListNotations.
Open Scope nat_scope.
Open Scope list_scope.

Section NodeInd.
Variable P : node -> Prop.
Hypothesis HLit : forall v, P (NLit v).
Hypothesis HArr : forall ls, P (NArr ls).
Hypothesis HBlk : forall c l b ls na, P b -> P (NBlk c l b ls na).
Hypothesis HBlkT : forall c l t na, P (NBlkT c l t na).
Hypothesis HRead : forall v k, P (NRead v k).
Hypothesis HSelf : forall k, P (NSelf k).
Hypothesis HWrite : forall v k e, P e -> P (NWrite v k e).
Hypothesis HFldR : forall k i, P (NFldR k i).
Hypothesis HFldW : forall k i e, P e -> P (NFldW k i e).
Hypothesis HFldI : forall k i, P (NFldI k i).
Hypothesis HGlob : forall n, P (NGlob n).
Hypothesis HUnk : forall n k, P (NUnk n k).
Hypothesis HSend : forall sel r l, P r -> Forall P l -> P (NSend sel r l).
Hypothesis HSuper : forall sel r l, P r -> Forall P l -> P (NSuper sel r l).
Hypothesis HInc : forall e, P e -> P (NInc e).
Hypothesis HRetNL : forall k e, P e -> P (NRetNL k e).
Hypothesis HRetLoc : forall e, P e -> P (NRetLoc e).
Hypothesis HSeq : forall l, Forall P l -> P (NSeq l).
Hypothesis HIf : forall b c t, P c -> P t -> P (NIf b c t).
Hypothesis HIfNil : forall c t, P c -> P t -> P (NIfNil c t).
Hypothesis HIfNotNil : forall c t, P c -> P t -> P (NIfNotNil c t).
Hypothesis HIfElse : forall b c t f, P c -> P t -> P f -> P (NIfElse b c t f).
Hypothesis HIfNN : forall c t f, P c -> P t -> P f -> P (NIfNN c t f).
Hypothesis HWhile : forall b c t, P c -> P t -> P (NWhile b c t).
Hypothesis HAnd : forall c t, P c -> P t -> P (NAnd c t).
Hypothesis HOr : forall c t, P c -> P t -> P (NOr c t).
Fixpoint node_ind' (nd : node) : P nd :=
  let all := fix all (l : list node) : Forall P l :=
    match l with [] => Forall_nil P | x :: l => Forall_cons x (node_ind' x) (all l) end in
  match nd with
  | NLit v => HLit v
  | NArr ls => HArr ls
  | NBlk c l b ls na => HBlk c l b ls na (node_ind' b)
  | NBlkT c l t na => HBlkT c l t na
  | NRead v k => HRead v k
  | NSelf k => HSelf k
  | NWrite v k e => HWrite v k e (node_ind' e)
  | NFldR k i => HFldR k i
  | NFldW k i e => HFldW k i e (node_ind' e)
  | NFldI k i => HFldI k i
  | NGlob n => HGlob n
  | NUnk n k => HUnk n k
  | NSend sel r l => HSend sel r l (node_ind' r) (all l)
  | NSuper sel r l => HSuper sel r l (node_ind' r) (all l)
  | NInc e => HInc e (node_ind' e)
  | NRetNL k e => HRetNL k e (node_ind' e)
  | NRetLoc e => HRetLoc e (node_ind' e)
  | NSeq l => HSeq l (all l)
  | NIf b c t => HIf b c t (node_ind' c) (node_ind' t)
  | NIfNil c t => HIfNil c t (node_ind' c) (node_ind' t)
  | NIfNotNil c t => HIfNotNil c t (node_ind' c) (node_ind' t)
  | NIfElse b c t f => HIfElse b c t f (node_ind' c) (node_ind' t) (node_ind' f)
  | NIfNN c t f => HIfNN c t f (node_ind' c) (node_ind' t) (node_ind' f)
  | NWhile b c t => HWhile b c t (node_ind' c) (node_ind' t)
  | NAnd c t => HAnd c t (node_ind' c) (node_ind' t)
  | NOr c t => HOr c t (node_ind' c) (node_ind' t)
  end.
End NodeInd.

(** Without the locals of blocks. *)
Fixpoint bare (nd : node) : node :=
  match nd with
  | NBlk c l b _ na => NBlk c l (bare b) [] na
  | NWrite v k e => NWrite v k (bare e)
  | NFldW k i e => NFldW k i (bare e)
  | NSend sel r l => NSend sel (bare r) (map bare l)
  | NSuper sel r l => NSuper sel (bare r) (map bare l)
  | NInc e => NInc (bare e)
  | NRetNL k e => NRetNL k (bare e)
  | NRetLoc e => NRetLoc (bare e)
  | NSeq l => NSeq (map bare l)
  | NIf b c t => NIf b (bare c) (bare t)
  | NIfNil c t => NIfNil (bare c) (bare t)
  | NIfNotNil c t => NIfNotNil (bare c) (bare t)
  | NIfElse b c t f => NIfElse b (bare c) (bare t) (bare f)
  | NIfNN c t f => NIfNN (bare c) (bare t) (bare f)
  | NWhile b c t => NWhile b (bare c) (bare t)
  | NAnd c t => NAnd (bare c) (bare t)
  | NOr c t => NOr (bare c) (bare t)
  | NLit _ | NArr _ | NBlkT _ _ _ _ | NRead _ _ | NSelf _ | NFldR _ _ | NFldI _ _ | NGlob _ | NUnk _ _ => nd
  end.
(** What adapting does to a node. *)
Definition lower_triv (r : nat) (t : atriv) : atriv :=
  match t with
  | AUnk n k => AUnk n (adapt_unk r k)
  | AFld i k => AFld i (low r k)
  | _ => t
  end.
Fixpoint lower (r : nat) (nd : node) : node :=
  match nd with
  | NLit _ | NArr _ | NGlob _ => nd
  | NBlk c l b ls na => NBlk c l (lower (S r) b) ls na
  | NBlkT c l t na => NBlkT c l (lower_triv (S r) t) na
  | NRead v k => NRead v (low r k)
  | NSelf k => NSelf (low r k)
  | NFldR k i => NFldR (low r k) i
  | NFldI k i => NFldI (low r k) i
  | NUnk n k => NUnk n (adapt_unk r k)
  | NWrite v k e => NWrite v (low r k) (lower r e)
  | NFldW k i e => NFldW (low r k) i (lower r e)
  | NSend sel x l => NSend sel (lower r x) (map (lower r) l)
  | NSuper sel x l => NSuper sel (lower r x) (map (lower r) l)
  | NInc e => NInc (lower r e)
  | NRetNL k e => match k with O => NRetNL O (lower r e) | S O => NRetLoc (lower r e) | S k => NRetNL k (lower r e) end
  | NRetLoc e => NRetLoc (lower r e)
  | NSeq l => NSeq (map (lower r) l)
  | NIf b c t => NIf b (lower r c) (lower r t)
  | NIfNil c t => NIfNil (lower r c) (lower r t)
  | NIfNotNil c t => NIfNotNil (lower r c) (lower r t)
  | NIfElse b c t f => NIfElse b (lower r c) (lower r t) (lower r f)
  | NIfNN c t f => NIfNN (lower r c) (lower r t) (lower r f)
  | NWhile b c t => NWhile b (lower r c) (lower r t)
  | NAnd c t => NAnd (lower r c) (lower r t)
  | NOr c t => NOr (lower r c) (lower r t)
  end.
(** The levels of returns are that of the home activation, and a block has its context if it
    needs it. *)
Fixpoint wf (d : nat) (nd : node) : bool :=
  match nd with
  | NBlk c _ b _ _ => Bool.eqb c (reach 0 b) && wf (S d) b
  | NBlkT c _ t _ => Bool.eqb c (reach_triv 0 t)
  | NWrite _ _ e | NFldW _ _ e | NInc e | NRetLoc e => wf d e
  | NSend _ r l | NSuper _ r l => wf d r && forallb (wf d) l
  | NRetNL k e => (k =? d) && wf d e
  | NSeq l => forallb (wf d) l
  | NIf _ c t | NIfNil c t | NIfNotNil c t | NWhile _ c t | NAnd c t | NOr c t => wf d c && wf d t
  | NIfElse _ c t f | NIfNN c t f => wf d c && wf d t && wf d f
  | NLit _ | NArr _ | NRead _ _ | NSelf _ | NFldR _ _ | NFldI _ _ | NGlob _ | NUnk _ _ => true
  end.

Lemma existsb_map_F (f g : node -> bool) (h : node -> node) l :
  Forall (fun x => f (h x) = g x) l -> existsb f (map h l) = existsb g l.
Proof. induction 1 as [|x l H _ IH]; simpl; auto. rewrite H, IH. reflexivity. Qed.
Lemma forallb_map_F (f g : node -> bool) (h : node -> node) l :
  Forall (fun x => f (h x) = g x) l -> forallb f (map h l) = forallb g l.
Proof. induction 1 as [|x l H _ IH]; simpl; auto. rewrite H, IH. reflexivity. Qed.

Lemma reach_bare nd : forall i, reach i (bare nd) = reach i nd.
Proof.
  induction nd using node_ind'; intros j; cbn [bare reach]; auto; try congruence.
  - rewrite IHnd. f_equal. apply existsb_map_F. eapply Forall_impl; [|exact H]. auto.
  - rewrite IHnd. f_equal. apply existsb_map_F. eapply Forall_impl; [|exact H]. auto.
  - apply existsb_map_F. eapply Forall_impl; [|exact H]. auto.
Qed.
Lemma wf_bare nd : forall d, wf d (bare nd) = wf d nd.
Proof.
  induction nd using node_ind'; intros d; cbn [bare wf]; auto; try congruence.
  - rewrite reach_bare, IHnd. reflexivity.
  - rewrite IHnd. f_equal. apply forallb_map_F. eapply Forall_impl; [|exact H]. auto.
  - rewrite IHnd. f_equal. apply forallb_map_F. eapply Forall_impl; [|exact H]. auto.
  - apply forallb_map_F. eapply Forall_impl; [|exact H]. auto.
Qed.
Lemma existsb_false_F (f : node -> bool) l : existsb f l = false -> Forall (fun x => f x = false) l.
Proof. induction l as [|x l IH]; simpl; intros H; constructor; apply orb_false_iff in H; destruct H; auto. Qed.
Lemma forallb_F (f : node -> bool) l : forallb f l = true -> Forall (fun x => f x = true) l.
Proof. intros H. apply Forall_forall. apply forallb_forall. exact H. Qed.
Lemma map_id_F (h : node -> node) l : Forall (fun x => h x = x) l -> map h l = l.
Proof. induction 1 as [|x l H _ IH]; simpl; congruence. Qed.

Ltac bools := repeat match goal with
  | H : _ && _ = true |- _ => apply andb_true_iff in H; destruct H
  | H : _ || _ = false |- _ => apply orb_false_iff in H; destruct H
  | H : Bool.eqb _ _ = true |- _ => apply eqb_prop in H
  | H : (_ =? _) = true |- _ => apply Nat.eqb_eq in H
  | H : (_ <? _) = false |- _ => apply Nat.ltb_ge in H
  end.
Lemma lower_closed nd : forall d r i, wf d nd = true -> r < d -> i <= r -> reach i nd = false -> lower r nd = nd.
Proof.
  assert (L : forall l d r i, Forall (fun nd => forall d r i, wf d nd = true -> r < d -> i <= r -> reach i nd = false -> lower r nd = nd) l ->
    forallb (wf d) l = true -> r < d -> i <= r -> existsb (reach i) l = false -> map (lower r) l = l).
  { intros l d r i H Hw Hr Hi He. apply map_id_F. apply forallb_F in Hw. apply existsb_false_F in He.
    induction H; inversion Hw; inversion He; subst; constructor; eauto. }
  induction nd using node_ind'; intros d r' j Hw Hr Hi He; cbn [wf reach lower] in *; bools; auto;
    try (rewrite low_le by lia); try (f_equal; eauto; fail).
  - f_equal. apply (IHnd (S d) (S r') (S j)); auto; lia.
  - destruct t; cbn [reach_triv lower_triv] in *; try discriminate; auto. bools. rewrite low_le by lia. reflexivity.
  - discriminate.
  - lia.
Qed.
Lemma adapt_var_low r cur v k p : adapt_var r cur v k = Ok p -> fst p = low r k.
Proof.
  unfold adapt_var, low. destruct (r <? k) eqn:E1.
  - apply Nat.ltb_lt in E1. intros H. injection H as <-. replace (k <=? r) with false by (symmetry; apply Nat.leb_gt; lia). reflexivity.
  - apply Nat.ltb_ge in E1. replace (k <=? r) with true by (symmetry; apply Nat.leb_le; lia).
    destruct (k =? r); [|intros H; injection H as <-; reflexivity].
    destruct v; [|discriminate]. destruct (has_source _ cur); [|discriminate]. intros H; injection H as <-; reflexivity.
Qed.
Lemma adapt_self_low r k p : adapt_self r k = Ok p -> p = low r k.
Proof.
  unfold adapt_self, low. destruct r as [|r], k as [|k]; cbn [Nat.leb Nat.sub]; intros H.
  - injection H as <-; reflexivity.
  - injection H as <-. lia.
  - injection H as <-; reflexivity.
  - destruct (Datatypes.S r <? Datatypes.S k) eqn:E; cbn [andb] in H; [|discriminate]. apply Nat.ltb_lt in E.
    destruct (0 <? k); [|discriminate]. injection H as <-. replace (k <=? r) with false by (symmetry; apply Nat.leb_gt; lia). lia.
Qed.

Ltac mon H := match type of H with
  | Base.bind ?a _ = Ok _ => let E := fresh "E" in let x := fresh "a" in destruct a as [x|] eqn:E; [cbn [Base.bind] in H|discriminate]
  end.
Definition adapts (r : nat) (cur : list local) : list node -> res (list node * list nat) :=
  fix go (l : list node) : res (list node * list nat) :=
    match l with
    | [] => Ok ([], [])
    | x :: l => p <- adapt_node r cur x ;; q <- go l ;; Ok (fst p :: fst q, snd p ++ snd q)
    end.
Lemma adapt_lower nd : forall d r cur p, wf d nd = true -> r < d -> adapt_node r cur nd = Ok p ->
  bare (fst p) = lower r (bare nd).
Proof.
  assert (L : forall l d r cur p, Forall (fun nd => forall d r cur p, wf d nd = true -> r < d -> adapt_node r cur nd = Ok p ->
      bare (fst p) = lower r (bare nd)) l ->
    forallb (wf d) l = true -> r < d -> adapts r cur l = Ok p -> map bare (fst p) = map (lower r) (map bare l)).
  { intros l d r cur p H. revert p. induction H as [|x l Hx _ IH]; intros p Hw Hr E; cbn [adapts] in E.
    - injection E as <-. reflexivity.
    - cbn [forallb] in Hw. bools. repeat mon E. injection E as <-. cbn [fst map]. f_equal; eauto. }
  induction nd using node_ind'; intros d r' cur p Hw Hr H0; cbn [wf] in *; cbn [adapt_node] in H0; bools;
    try (injection H0 as <-; reflexivity).
  - destruct c.
    + mon H0. injection H0 as <-. cbn [fst bare lower]. f_equal. apply (IHnd (S d) (S r') cur a); auto; lia.
    + injection H0 as <-. cbn [fst bare lower]. f_equal. symmetry.
      apply (lower_closed _ (S d) (S r') 0); try lia. rewrite wf_bare; auto. rewrite reach_bare. auto.
  - destruct c; [discriminate|]. injection H0 as <-. cbn [fst bare lower]. f_equal.
    destruct t; cbn [reach_triv lower_triv] in *; try discriminate; auto. symmetry in Hw. bools. rewrite low_le by lia. reflexivity.
  - mon H0. injection H0 as <-. cbn [fst bare lower]. f_equal. eapply adapt_var_low; eauto.
  - mon H0. injection H0 as <-. cbn [fst bare lower]. f_equal. eapply adapt_self_low; eauto.
  - assert (Q : (q <- adapt_node r' cur nd ;; p <- adapt_var r' cur v k ;; Ok (NWrite v (fst p) (fst q), snd q ++ snd p)) = Ok p).
    { destruct r'; auto. destruct nd; auto. destruct k0 as [|[|]]; auto. discriminate. }
    mon Q. mon Q. injection Q as <-. cbn [fst bare lower]. f_equal; [eapply adapt_var_low; eauto|eauto].
  - mon H0. injection H0 as <-. cbn [fst bare lower]. f_equal. eapply adapt_self_low; eauto.
  - mon H0. mon H0. injection H0 as <-. cbn [fst bare lower]. f_equal; [eapply adapt_self_low; eauto|eauto].
  - mon H0. injection H0 as <-. cbn [fst bare lower]. f_equal. eapply adapt_self_low; eauto.
  - mon H0. mon H0. injection H0 as <-. cbn [fst bare lower]. f_equal; eauto.
  - mon H0. mon H0. injection H0 as <-. cbn [fst bare lower]. f_equal; eauto.
  - mon H0. injection H0 as <-. cbn [fst bare lower]. f_equal; eauto.
  - mon H0. subst d. destruct k as [|[|k]]; [discriminate| |]; injection H0 as <-; cbn [fst bare lower]; f_equal; eauto.
  - mon H0. injection H0 as <-. cbn [fst bare lower]. f_equal; eauto.
  - mon H0. injection H0 as <-. cbn [fst bare lower]. f_equal; eauto.
  - repeat mon H0. injection H0 as <-. cbn [fst bare lower]. f_equal; eauto.
  - repeat mon H0. injection H0 as <-. cbn [fst bare lower]. f_equal; eauto.
  - repeat mon H0. injection H0 as <-. cbn [fst bare lower]. f_equal; eauto.
  - repeat mon H0. injection H0 as <-. cbn [fst bare lower]. f_equal; eauto.
  - repeat mon H0. injection H0 as <-. cbn [fst bare lower]. f_equal; eauto.
  - repeat mon H0. injection H0 as <-. cbn [fst bare lower]. f_equal; eauto.
  - repeat mon H0. injection H0 as <-. cbn [fst bare lower]. f_equal; eauto.
  - repeat mon H0. injection H0 as <-. cbn [fst bare lower]. f_equal; eauto.
Qed.
(** References inside the inlined block's activation stay, those further out get closer. *)
Lemma ltb_low_lt i r k : i < r -> (i <? low r k) = (i <? k).
Proof.
  intros H. unfold low. destruct (k <=? r) eqn:E; auto. apply Nat.leb_gt in E.
  transitivity true; [|symmetry]; apply Nat.ltb_lt; lia.
Qed.
Lemma ltb_low_ge i r k : r <= i -> (i <? low r k) = (S i <? k).
Proof.
  intros H. unfold low. destruct (k <=? r) eqn:E.
  - apply Nat.leb_le in E. transitivity false; [|symmetry]; apply Nat.ltb_ge; lia.
  - apply Nat.leb_gt in E. destruct (i <? k - 1) eqn:E2; symmetry; [apply Nat.ltb_lt; apply Nat.ltb_lt in E2|apply Nat.ltb_ge; apply Nat.ltb_ge in E2]; lia.
Qed.
Lemma reach_lower_lt nd : forall d r i, wf d nd = true -> r < d -> i < r -> reach i (lower r nd) = reach i nd.
Proof.
  assert (L : forall l d r i, Forall (fun nd => forall d r i, wf d nd = true -> r < d -> i < r -> reach i (lower r nd) = reach i nd) l ->
    forallb (wf d) l = true -> r < d -> i < r -> existsb (reach i) (map (lower r) l) = existsb (reach i) l).
  { intros l d r i H Hw Hr Hi. apply existsb_map_F. apply forallb_F in Hw. induction H; inversion Hw; subst; constructor; eauto. }
  induction nd using node_ind'; intros d r' j Hw Hr Hi; cbn [wf reach lower] in *; bools; auto;
    rewrite ?ltb_low_lt by auto; try (f_equal; eauto; fail); eauto.
  - apply (IHnd (S d)); auto; lia.
  - destruct t; cbn [reach_triv lower_triv]; auto. rewrite ltb_low_lt by lia. reflexivity.
  - subst k. destruct d as [|[|k]]; cbn [reach]; try lia. rewrite (IHnd (S (S k))) by auto. f_equal.
    transitivity true; [|symmetry]; apply Nat.ltb_lt; lia.
  - rewrite (IHnd1 d), (IHnd2 d), (IHnd3 d) by auto. reflexivity.
  - rewrite (IHnd1 d), (IHnd2 d), (IHnd3 d) by auto. reflexivity.
Qed.
Lemma reach_lower_ge nd : forall r i, r <= i -> reach i (lower r nd) = reach (S i) nd.
Proof.
  assert (L : forall l r i, Forall (fun nd => forall r i, r <= i -> reach i (lower r nd) = reach (S i) nd) l ->
    r <= i -> existsb (reach i) (map (lower r) l) = existsb (reach (S i)) l).
  { intros l r i H Hi. apply existsb_map_F. eapply Forall_impl; [|exact H]. auto. }
  induction nd using node_ind'; intros r' j Hi; cbn [reach lower]; auto;
    rewrite ?ltb_low_ge by auto; try (f_equal; eauto; fail); eauto.
  - apply IHnd. lia.
  - destruct t; cbn [reach_triv lower_triv]; auto. rewrite ltb_low_ge by lia. reflexivity.
  - destruct k as [|[|k]]; cbn [reach]; rewrite IHnd by auto; try reflexivity; try f_equal.
  - rewrite IHnd1, IHnd2, IHnd3 by auto. reflexivity.
  - rewrite IHnd1, IHnd2, IHnd3 by auto. reflexivity.
Qed.

(** * The node of an expression *)
Section Of.
Variable ce : cenv.
Lemma depth_level ps ls rho : rho <> [] -> depth (add_level ps ls rho) = S (depth rho).
Proof. unfold depth, add_level. destruct rho; [congruence|]. simpl. lia. Qed.
Lemma depth_layer ls rho : depth (add_layer ls rho) = depth rho.
Proof. unfold depth. destruct rho; reflexivity. Qed.
Lemma layer_ne ls rho : rho <> [] -> add_layer ls rho <> [].
Proof. destruct rho; simpl; congruence. Qed.
Lemma wf_seq d l : forallb (wf d) l = true -> wf d (seq_node l) = true.
Proof. destruct l as [|x [|y l]]; auto. simpl. rewrite andb_true_r. auto. Qed.
Lemma wf_blk d c label b na : c = reach 0 b -> wf (S d) b = true -> wf d (blk_node c label b na) = true.
Proof.
  intros -> H. destruct b; cbn [blk_node wf] in *; rewrite ?eqb_reflx; auto.
Qed.
Lemma wf_write d rho x e : wf d e = true -> wf d (wr_node ce rho x e) = true.
Proof.
  intros H. unfold wr_node. destruct (resolve x rho) as [[k v]|]; cbn [wf]; auto.
  destruct (position x _); [destruct (accesses_field _ e); cbn [wf]; auto|]. cbn [wf forallb]. rewrite H. reflexivity.
Qed.
Lemma wf_node : forall e,
  (forall rho, rho <> [] -> wf (depth rho) (node_of ce e rho) = true) /\
  match e with
  | SBlk _ _ _ ss ret _ => forall rho, rho <> [] -> wf (depth rho) (node_body ce ss ret rho) = true
  | _ => True
  end.
Proof.
  induction e as [x|l|sup e sel args IHe IHargs|e IHe|e IHe|vs e IHe|label ps ls ss ret per IHss IHret] using src_ind'.
  - split; auto. intros rho Hn. cbn [node_of]. unfold rd_node. destruct (resolve x rho) as [[k v]|]; [destruct (text_eqb x t_self); reflexivity|].
    destruct (position x _); [reflexivity|]. destruct (text_eqb x t_nil); [reflexivity|]. destruct (text_eqb x t_true); [reflexivity|].
    destruct (text_eqb x t_false); [reflexivity|]. destruct (ce_known ce x); reflexivity.
  - split; auto. intros rho Hn. destruct l as [l|ls]; cbn [node_of]; [destruct (lit_value l)|]; reflexivity.
  - split; auto. intros rho Hn. rewrite node_send. destruct IHe as [Ie Be]. rewrite Forall_forall in IHargs.
    assert (IB : forall b, (b = e \/ In b args) -> wf (depth rho) (node_inl ce b rho) = true).
    { intros b Hb. destruct b; auto. cbn [node_inl]. rewrite <- (depth_layer ls rho).
      destruct Hb as [Hb | Hb]; [subst e; apply Be|apply (IHargs _ Hb)]; apply layer_ne; auto. }
    destruct (special_form sup e sel args) as [k|] eqn:Es.
    + apply special_shape in Es. destruct Es as (-> & Es & Hs). destruct k; cbn [node_special].
      * destruct Hs as (a & -> & Hb). destruct k; cbn [then_node wf]; rewrite Ie, IB; simpl; auto.
      * destruct Hs as (a & b & -> & Hb & Hb2). destruct k; cbn [else_node wf]; rewrite Ie, !IB; simpl; auto.
      * destruct Hs as (a & -> & Hb & Hb2). cbn [wf]. rewrite !IB; simpl; auto.
      * destruct Hs as (a & -> & Hb). destruct b; cbn [wf]; rewrite Ie, IB; simpl; auto.
    + unfold node_message. destruct (adds_one sup sel args); [cbn [wf]; auto|].
      assert (A : forallb (wf (depth rho)) (map (fun a => node_of ce a rho) args) = true).
      { apply forallb_forall. intros x Hx. apply in_map_iff in Hx. destruct Hx as (a & <- & Ha). apply (IHargs a Ha); auto. }
      destruct sup; cbn [wf]; rewrite Ie, A; auto.
  - split; auto. intros rho Hn. cbn [node_of wf]. apply IHe; auto.
  - split; auto. intros rho Hn. cbn [node_of wf forallb]. rewrite (proj1 IHe); auto.
  - split; auto. intros rho Hn. cbn [node_of]. induction vs as [|v vs IH]; cbn [wr_nodes fold_right]; [apply IHe; auto|]. apply wf_write. exact IH.
  - assert (B : forall rho, rho <> [] -> wf (depth rho) (node_body ce ss ret rho) = true).
    { intros rho Hn. apply wf_seq. unfold node_list. rewrite forallb_app. apply andb_true_iff. split.
      - apply forallb_forall. intros x Hx. apply in_map_iff in Hx. destruct Hx as (a & <- & Ha). rewrite Forall_forall in IHss. apply (IHss a Ha); auto.
      - destruct ret as [e|]; auto. cbn [forallb]. unfold ret_node. destruct (depth rho) eqn:Ed; cbn [wf]; rewrite <- ?Ed, (proj1 IHret) by auto; rewrite ?Ed, ?Nat.eqb_refl; reflexivity. }
    split; auto. intros rho Hn. cbn [node_of]. apply wf_blk; [reflexivity|]. rewrite <- (depth_level ps ls rho Hn). apply B. discriminate.
Qed.

(** The levels that are merged. *)
Definition single_at (r : nat) (rho : env) : Prop :=
  exists a l x, nth_error rho r = Some a /\ lv_layers a <> [] /\ nth_error rho (S r) = Some l /\ lv_layers l = [x].
Definition inlinable (r : nat) (rho : env) : Prop := mergeable r rho /\ single_at r rho /\ homed rho.
Lemma inlinable_layer r ls rho : no_self (map fst ls) = true -> inlinable r rho -> inlinable r (add_layer ls rho).
Proof.
  intros Hl (H1 & (a & l & x & E1 & E2 & E3 & E4) & H3). split; [apply mergeable_add_layer; auto|]. split; [|apply homed_layer; auto].
  destruct rho as [|z rho]; [discriminate|]. destruct r as [|r]; cbn [add_layer nth_error] in *.
  - injection E1 as ->. exists (Level (ls :: lv_layers a) (lv_args a)), l, x. repeat split; auto. discriminate.
  - exists a, l, x. auto.
Qed.
Lemma inlinable_level r ps ls rho : no_self ps = true -> no_self (map fst ls) = true -> inlinable r rho -> inlinable (S r) (add_level ps ls rho).
Proof.
  intros Hp Hl (H1 & (a & l & x & E) & H3). split; [unfold add_level; apply mergeable_S; auto|]. split; [|apply homed_level; auto].
  exists a, l, x. exact E.
Qed.
Lemma sum_merge r : forall rho, single_at r rho -> r < length rho ->
  list_sum (map (fun l => length (lv_layers l) - 1) (merge r rho)) = S (list_sum (map (fun l => length (lv_layers l) - 1) rho)).
Proof.
  induction r as [|r IH]; intros rho (a & l & x & E1 & E2 & E3 & E4) Hr.
  - destruct rho as [|z [|w rho]]; try discriminate. cbn [nth_error] in *. injection E1 as ->. injection E3 as ->.
    cbn [merge map list_sum fold_right lv_layers]. rewrite E4, app_length. cbn [length]. destruct (lv_layers a); [congruence|]. cbn [length]. unfold list_sum. lia.
  - destruct rho as [|z rho]; [discriminate|]. cbn [merge map list_sum fold_right]. cbn [length] in Hr.
    assert (Q : single_at r rho) by (exists a, l, x; auto). specialize (IH rho Q ltac:(lia)). unfold list_sum in IH. rewrite IH. lia.
Qed.
Lemma unk_merge r rho : inlinable r rho ->
  depth (merge r rho) + in_place (merge r rho) = adapt_unk r (depth rho + in_place rho).
Proof.
  intros (H1 & H2 & H3). destruct (depth_merge _ _ H1) as [Ed Hd]. rewrite Ed. destruct r as [|r].
  - cbn [adapt_unk]. destruct H2 as (a & l & x & E1 & E2 & E3 & E4). destruct rho as [|z [|w rho]]; try discriminate.
    cbn [nth_error] in *. injection E3 as ->. unfold in_place. cbn [merge tl map list_sum fold_right]. rewrite E4. cbn [length]. lia.
  - cbn [adapt_unk]. destruct rho as [|z rho]; [destruct H1; simpl in *; lia|]. unfold in_place. cbn [merge tl].
    rewrite sum_merge; [|destruct H2 as (a & l & x & E); exists a, l, x; exact E|destruct H1; simpl in *; lia]. lia.
Qed.
Lemma lower_seq r l : lower r (seq_node l) = seq_node (map (lower r) l).
Proof. destruct l as [|x [|y l]]; reflexivity. Qed.
Lemma lower_blk r c label b na : lower r (blk_node c label b na) = blk_node c label (lower (S r) b) na.
Proof. destruct b; try reflexivity. cbn [blk_node lower]. destruct k as [|[|k]]; reflexivity. Qed.
Lemma self_merge r rho : inlinable r rho -> r < depth rho /\ low r (depth rho) = depth (merge r rho).
Proof. intros (H1 & _ & _). destruct (depth_merge _ _ H1) as [-> Hd]. split; auto. apply low_gt; auto. Qed.
Lemma lower_then r k a b : lower r (then_node k a b) = then_node k (lower r a) (lower r b).
Proof. destruct k; reflexivity. Qed.
Lemma lower_else r k a b c : lower r (else_node k a b c) = else_node k (lower r a) (lower r b) (lower r c).
Proof. destruct k; reflexivity. Qed.
Lemma accesses_lower r i e : accesses_field i (lower r e) = accesses_field i e.
Proof.
  destruct e; try reflexivity.
  - cbn [lower accesses_field]. destruct e; try reflexivity. cbn [lower]. destruct k as [|[|k]]; reflexivity.
  - cbn [lower]. destruct k as [|[|k]]; reflexivity.
Qed.
Lemma write_merge_node r rho x e : name_ok x = true -> inlinable r rho ->
  wr_node ce (merge r rho) x (lower r e) = lower r (wr_node ce rho x e).
Proof.
  intros Hx Hi. unfold wr_node. rewrite resolve_merge by (auto; apply Hi). destruct (resolve x rho) as [[k v]|]; cbn [option_map fst snd lower]; auto.
  destruct (position x _); auto. rewrite accesses_lower. destruct (self_merge _ _ Hi) as [_ E]. destruct (accesses_field _ e); cbn [lower]; rewrite E; reflexivity.
Qed.
Lemma node_merge : forall e, ok_src e = true -> self_ok e = true ->
  (forall r rho, inlinable r rho -> node_of ce e (merge r rho) = lower r (node_of ce e rho)) /\
  match e with
  | SBlk _ _ _ ss ret _ => forall r rho, inlinable r rho -> node_body ce ss ret (merge r rho) = lower r (node_body ce ss ret rho)
  | _ => True
  end.
Proof.
  induction e as [x|l|sup e sel args IHe IHargs|e IHe|e IHe|vs e IHe|label ps ls ss ret per IHss IHret] using src_ind';
    intros Hok Hself; cbn [ok_src] in Hok; cbn [self_ok] in Hself.
  - split; auto. intros r rho Hi. cbn [node_of]. unfold rd_node. rewrite resolve_merge by (auto; apply Hi).
    destruct (self_merge _ _ Hi) as [Hd E].
    destruct (resolve x rho) as [[k v]|] eqn:Er; cbn [option_map fst snd].
    + destruct (text_eqb x t_self) eqn:Ex; reflexivity.
    + destruct (position x _); [cbn [lower]; rewrite E; reflexivity|]. destruct (text_eqb x t_nil); [reflexivity|]. destruct (text_eqb x t_true); [reflexivity|].
      destruct (text_eqb x t_false); [reflexivity|]. destruct (ce_known ce x); [reflexivity|]. cbn [lower]. rewrite unk_merge; auto.
  - split; auto. intros r rho Hi. destruct l as [l|ls]; cbn [node_of]; [destruct (lit_value l)|]; reflexivity.
  - split; auto. intros r rho Hi. bools. destruct (IHe H1 H) as [Ie Be]. rewrite forallb_forall in *. rewrite Forall_forall in IHargs.
    assert (IB : forall b, (b = e \/ In b args) -> is_block b = true -> node_inl ce b (merge r rho) = lower r (node_inl ce b rho)).
    { intros b Hb Hbl. destruct b; try discriminate. cbn [node_inl]. rewrite <- merge_add_layer by apply Hi.
      assert (Hs : self_ok (SBlk label ps ls ss ret period) = true) by (destruct Hb as [Hb|Hb]; [rewrite Hb; auto|auto]).
      cbn [self_ok] in Hs. repeat rewrite andb_true_iff in Hs. destruct Hs as [[[_ Hs] _] _].
      destruct Hb as [Hb | Hb]; [subst e; apply Be|apply (IHargs _ Hb (H4 _ Hb) (H0 _ Hb))]; apply inlinable_layer; auto. }
    rewrite !node_send. destruct (special_form sup e sel args) as [k|] eqn:Es.
    + apply special_shape in Es. destruct Es as (-> & Es & Hs). destruct k; cbn [node_special].
      * destruct Hs as (a & -> & Hb). rewrite lower_then, Ie, IB; simpl; auto.
      * destruct Hs as (a & b & -> & Hb & Hb2). rewrite lower_else, Ie, !IB; simpl; auto.
      * destruct Hs as (a & -> & Hb & Hb2). cbn [lower]. rewrite !IB; simpl; auto.
      * destruct Hs as (a & -> & Hb). destruct b; cbn [lower]; rewrite Ie, IB; simpl; auto.
    + unfold node_message. destruct (adds_one sup sel args); [cbn [lower]; rewrite Ie; auto|].
      assert (A : map (fun a => node_of ce a (merge r rho)) args = map (lower r) (map (fun a => node_of ce a rho) args)).
      { rewrite map_map. apply map_ext_in. intros a Ha. apply IHargs; auto. }
      destruct sup; cbn [lower]; rewrite Ie, A; auto.
  - split; auto. intros r rho Hi. cbn [node_of lower]. rewrite (proj1 (IHe Hok Hself)); auto.
  - split; auto. intros r rho Hi. cbn [node_of lower map]. rewrite (proj1 (IHe Hok Hself)); auto.
  - split; auto. intros r rho Hi. bools. cbn [node_of].
    assert (Hv : forallb name_ok vs = true) by (destruct vs; auto). clear H.
    induction vs as [|v vs IH]; cbn [wr_nodes fold_right]; [apply IHe; auto|]. cbn [forallb] in Hv. bools.
    fold (wr_nodes ce (merge r rho) vs (node_of ce e (merge r rho))). fold (wr_nodes ce rho vs (node_of ce e rho)).
    rewrite IH by auto. apply write_merge_node; auto.
  - bools. assert (B : forall r rho, inlinable r rho -> node_body ce ss ret (merge r rho) = lower r (node_body ce ss ret rho)).
    { intros r rho Hi. unfold node_body. rewrite lower_seq. f_equal. unfold node_list. rewrite map_app. f_equal.
      - rewrite map_map. apply map_ext_in. intros a Ha. rewrite forallb_forall in *. rewrite Forall_forall in IHss. apply IHss; auto.
      - destruct ret as [e|]; auto. cbn [map]. f_equal. rewrite (proj1 (IHret H4 H0)) by auto. destruct (self_merge _ _ Hi) as [Hd E].
        rewrite <- E, low_gt by auto. unfold ret_node. destruct (depth rho) as [|[|k]] eqn:Ed; [lia| |]; reflexivity. }
    split; auto. intros r rho Hi. cbn [node_of].
    change (blk_node (reach 0 (node_body ce ss ret (merge (S r) (add_level ps ls rho)))) label (node_body ce ss ret (merge (S r) (add_level ps ls rho))) (S (length ps)) =
      lower r (blk_node (reach 0 (node_body ce ss ret (add_level ps ls rho))) label (node_body ce ss ret (add_level ps ls rho)) (S (length ps)))).
    assert (Hi2 := inlinable_level r ps ls rho H H2 Hi). rewrite lower_blk, (B _ _ Hi2). f_equal.
    destruct (self_merge _ _ Hi2) as [Hd _]. apply (reach_lower_lt _ (depth (add_level ps ls rho))); auto; try lia.
    exact (proj2 (wf_node (SBlk label ps ls ss ret per)) (add_level ps ls rho) ltac:(discriminate)).
Qed.
End Of.
