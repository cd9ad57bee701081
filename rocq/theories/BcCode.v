(** Structured code: the shape of the bytecodes the compiler emits, used only in proofs.
    Operands are variables, values and block literals instead of indices; jumps are
    structured.  [enc] says which bytes encode a piece of code, [impl] that a block method
    implements a block literal. *)
From Coq Require Import ZArith Bool String Ascii List Lia.
From Verif Require Import Base LexModel ParseModel BcModel BcInterp BcSpec.
Import ListNotations.
Open Scope nat_scope.
Open Scope list_scope.

Inductive op :=
| OLit (v : value)
| OLoc (k d : nat)
| OArg (k i : nat)
| OFld (k i : nat)
| OGlob (t : text)
| OBlk (b : src) (rho : env)
| ODup
| OPop
| OSetLoc (k d : nat)
| OSetArg (k i : nat)
| OSetFld (k i : nat)
| OSend (t : text)
| OSuper (t : text)
| OInc
| ODec
| OIncFld (k i : nat)
| OIncFldPush (k i : nat)
| ORet
| ORetNl (k : nat)
| ORetSelf
| ORetFld (i : nat).
Inductive item :=
| IOp (o : op)
| IThen (k : cond) (b : list item)
| IElse (k : cond) (b1 b2 : list item)
| ILoop (k : cond) (t b : list item).

Section ItemInd.
Variable P : item -> Prop.
Hypothesis Hop : forall o, P (IOp o).
Hypothesis Hthen : forall k b, Forall P b -> P (IThen k b).
Hypothesis Helse : forall k b1 b2, Forall P b1 -> Forall P b2 -> P (IElse k b1 b2).
Hypothesis Hloop : forall k t b, Forall P t -> Forall P b -> P (ILoop k t b).
Fixpoint item_ind' (i : item) : P i :=
  let all := fix go (c : list item) : Forall P c :=
    match c with [] => Forall_nil P | i :: c => Forall_cons i (item_ind' i) (go c) end in
  match i with
  | IOp o => Hop o
  | IThen k b => Hthen k b (all b)
  | IElse k b1 b2 => Helse k b1 b2 (all b1) (all b2)
  | ILoop k t b => Hloop k t b (all t) (all b)
  end.
End ItemInd.

Definition label_of (b : src) : nat := match b with SBlk l _ _ _ _ _ => l | _ => 0 end.

(** * Execution *)
Section Exec.
Context {S X : Type}.
Variable μ : machine S X.
Notation stack := (list value).

Definition exec_op (o : op) (st : stack) (s : S) : out S X stack :=
  let pushv (m : out S X value) := bind m (fun v s => Done (v :: st) s) in
  let call f t := popn (nargs t) st (fun args r => bind (f t args s) (fun v s => Done (v :: r) s)) in
  match o with
  | OLit v => Done (v :: st) s
  | OLoc k d => pushv (m_rd μ k (VLoc d) s)
  | OArg k i => pushv (m_rd μ k (VArg i) s)
  | OFld k i => pushv (m_getf μ k i s)
  | OGlob t => pushv (m_glob μ t s)
  | OBlk b _ => pushv (m_blk μ (label_of b) s)
  | ODup => pop st (fun v _ => Done (v :: st) s)
  | OPop => pop st (fun _ r => Done r s)
  | OSetLoc k d => pop st (fun v r => bind (m_wr μ k (VLoc d) v s) (fun _ s => Done r s))
  | OSetArg k i => pop st (fun v r => bind (m_wr μ k (VArg i) v s) (fun _ s => Done r s))
  | OSetFld k i => pop st (fun v r => bind (m_setf μ k i v s) (fun _ s => Done r s))
  | OSend t => call (m_send μ) t
  | OSuper t => call (m_super μ) t
  | OInc => pop st (fun v r => bind (m_inc μ v s) (fun v s => Done (v :: r) s))
  | ODec => pop st (fun v r => bind (m_dec μ v s) (fun v s => Done (v :: r) s))
  | OIncFld k i => bind (m_incf μ k i s) (fun _ s => Done st s)
  | OIncFldPush k i => pushv (m_incf μ k i s)
  | ORet => pop st (fun v _ => Retn v s)
  | ORetNl k => pop st (fun v _ => bind (m_nlr μ k v s) (fun v s => Retn v s))
  | ORetSelf => bind (m_rd μ 0 (VArg 0) s) (fun v s => Retn v s)
  | ORetFld i => bind (m_getf μ 0 i s) (fun v s => Retn v s)
  end.
Fixpoint exec_loop (n : nat) (t b : nat -> stack -> S -> out S X stack) (k : cond)
  (st : stack) (s : S) : out S X stack :=
  match n with
  | O => Hang
  | Datatypes.S n' =>
      bind (t n st s) (fun st s =>
      pop st (fun v r =>
      if takes k v then Done r s
      else bind (b n r s) (fun st s => exec_loop n' t b k st s)))
  end.
Fixpoint exec_item (i : item) (n : nat) (st : stack) (s : S) {struct i} : out S X stack :=
  let code := fix go (c : list item) (n : nat) (st : stack) (s : S) {struct c} : out S X stack :=
    match c with
    | [] => Done st s
    | i :: c => bind (exec_item i n st s) (fun st s => go c n st s)
    end in
  match i with
  | IOp o => exec_op o st s
  | IThen k b => pop st (fun v r =>
      if takes k v then Done (left_value k v :: r) s else code b n r s)
  | IElse k b1 b2 => pop st (fun v r => if takes k v then code b2 n r s else code b1 n r s)
  | ILoop k t b => exec_loop n (code t) (code b) k st s
  end.
Fixpoint exec (c : list item) (n : nat) (st : stack) (s : S) : out S X stack :=
  match c with
  | [] => Done st s
  | i :: c => bind (exec_item i n st s) (fun st s => exec c n st s)
  end.
Lemma exec_item_eq i n st s :
  exec_item i n st s =
  match i with
  | IOp o => exec_op o st s
  | IThen k b => pop st (fun v r =>
      if takes k v then Done (left_value k v :: r) s else exec b n r s)
  | IElse k b1 b2 => pop st (fun v r => if takes k v then exec b2 n r s else exec b1 n r s)
  | ILoop k t b => exec_loop n (exec t) (exec b) k st s
  end.
Proof. destruct i; reflexivity. Qed.
End Exec.

Lemma bind_assoc {S X A B C} (m : out S X A) (f : A -> S -> out S X B) (g : B -> S -> out S X C) :
  bind (bind m f) g = bind m (fun a s => bind (f a s) g).
Proof. destruct m; reflexivity. Qed.
Lemma bind_ext {S X A B} (m : out S X A) (f g : A -> S -> out S X B) :
  (forall a s, f a s = g a s) -> bind m f = bind m g.
Proof. intros H. destruct m; simpl; auto. Qed.
Lemma bind_done {S X A} (m : out S X A) : bind m (fun a s => Done a s) = m.
Proof. destruct m; reflexivity. Qed.

Lemma exec_app {S X} (μ : machine S X) a b n st s :
  exec μ (a ++ b) n st s = bind (exec μ a n st s) (fun st s => exec μ b n st s).
Proof.
  revert st s. induction a as [|i a IH]; intros st s; simpl; auto.
  rewrite bind_assoc. apply bind_ext. intros st1 s1. apply IH.
Qed.
Lemma exec_op1 {S X} (μ : machine S X) o n st s : exec μ [IOp o] n st s = exec_op μ o st s.
Proof. simpl. apply bind_done. Qed.
Lemma exec_loop_ext {S X} (t t' b b' : nat -> list value -> S -> out S X (list value)) k n st s :
  (forall n st s, t n st s = t' n st s) -> (forall n st s, b n st s = b' n st s) ->
  exec_loop n t b k st s = exec_loop n t' b' k st s.
Proof.
  intros Ht Hb. revert st s. induction n as [|n IH]; intros st s; simpl; auto.
  rewrite Ht. apply bind_ext. intros st1 s1. destruct st1; simpl; auto.
  destruct (takes k v); auto. rewrite Hb. apply bind_ext. auto.
Qed.

(** * Heights of the operand stack *)
Definition op_ht (o : op) (h : nat) : option nat :=
  match o with
  | OLit _ | OLoc _ _ | OArg _ _ | OFld _ _ | OGlob _ | OBlk _ _ | OIncFldPush _ _ => Some (S h)
  | ODup => if 1 <=? h then Some (S h) else None
  | OPop | OSetLoc _ _ | OSetArg _ _ | OSetFld _ _ => if 1 <=? h then Some (h - 1) else None
  | OSend t | OSuper t => if nargs t <=? h then Some (S (h - nargs t)) else None
  | OInc | ODec | ORet | ORetNl _ => if 1 <=? h then Some h else None
  | OIncFld _ _ | ORetSelf | ORetFld _ => Some h
  end.
Definition hs := option (nat * nat).
Definition hseq (a : hs) (f : nat -> hs) : hs :=
  match a with
  | Some (h, p) => match f h with Some (h', q) => Some (h', Nat.max p q) | None => None end
  | None => None
  end.
Definition heq (n : nat) (a : hs) (f : nat -> nat -> hs) : hs :=
  match a with Some (h, p) => if h =? n then f h p else None | None => None end.
Fixpoint typ_item (i : item) (h : nat) {struct i} : hs :=
  let code := fix go (c : list item) (h : nat) : hs :=
    match c with [] => Some (h, h) | i :: c => hseq (typ_item i h) (go c) end in
  match i with
  | IOp o => match op_ht o h with Some h' => Some (h', Nat.max h h') | None => None end
  | IThen _ b =>
      if 1 <=? h then heq h (code b (h - 1)) (fun _ p => Some (h, Nat.max h p)) else None
  | IElse _ b1 b2 =>
      if 1 <=? h then heq h (code b1 (h - 1)) (fun _ p =>
                      heq h (code b2 (h - 1)) (fun _ q => Some (h, Nat.max h (Nat.max p q))))
      else None
  | ILoop _ t b =>
      heq (S h) (code t h) (fun _ p => heq h (code b h) (fun _ q => Some (h, Nat.max p q)))
  end.
Fixpoint typ (c : list item) (h : nat) : hs :=
  match c with [] => Some (h, h) | i :: c => hseq (typ_item i h) (typ c) end.
Lemma typ_item_eq i h :
  typ_item i h =
  match i with
  | IOp o => match op_ht o h with Some h' => Some (h', Nat.max h h') | None => None end
  | IThen _ b =>
      if 1 <=? h then heq h (typ b (h - 1)) (fun _ p => Some (h, Nat.max h p)) else None
  | IElse _ b1 b2 =>
      if 1 <=? h then heq h (typ b1 (h - 1)) (fun _ p =>
                      heq h (typ b2 (h - 1)) (fun _ q => Some (h, Nat.max h (Nat.max p q))))
      else None
  | ILoop _ t b =>
      heq (S h) (typ t h) (fun _ p => heq h (typ b h) (fun _ q => Some (h, Nat.max p q)))
  end.
Proof. destruct i; reflexivity. Qed.

Lemma hseq_some a f h' q : hseq a f = Some (h', q) ->
  exists h p r, a = Some (h, p) /\ f h = Some (h', r) /\ q = Nat.max p r.
Proof.
  unfold hseq. destruct a as [[h p]|]; [|discriminate].
  destruct (f h) as [[h1 r]|] eqn:E; [|discriminate]. intros H. inversion H; subst. eauto 6.
Qed.
Lemma heq_some n a f r : heq n a f = Some r -> exists p, a = Some (n, p) /\ f n p = Some r.
Proof.
  unfold heq. destruct a as [[h p]|]; [|discriminate].
  destruct (h =? n) eqn:E; [|discriminate]. apply Nat.eqb_eq in E. subst. eauto.
Qed.
Lemma typ_app a b h : typ (a ++ b) h = hseq (typ a h) (typ b).
Proof.
  revert h. induction a as [|i a IH]; intros h; simpl.
  - destruct (typ b h) as [[h' p]|] eqn:E; auto.
    f_equal. f_equal.
    cut (h <= p); [lia|].
    clear -E. destruct b as [|i b]; simpl in E.
    + inversion E; auto.
    + apply hseq_some in E. destruct E as (h1 & p1 & r & E & _ & ->).
      cut (h <= p1); [lia|]. rewrite typ_item_eq in E.
      destruct i.
      * destruct (op_ht o h); inversion E. lia.
      * destruct (1 <=? h); [|discriminate]. apply heq_some in E. destruct E as (p' & _ & E). inversion E. lia.
      * destruct (1 <=? h); [|discriminate]. apply heq_some in E. destruct E as (p' & _ & E).
        apply heq_some in E. destruct E as (q' & _ & E). inversion E. lia.
      * apply heq_some in E. destruct E as (p' & E1 & E).
        apply heq_some in E. destruct E as (q' & E2 & E). inversion E. subst.
        assert (G : forall c h a q, typ c h = Some (a, q) -> a <= q).
        { clear. induction c as [|i c IH]; simpl; intros h a q E.
          - inversion E; auto.
          - apply hseq_some in E. destruct E as (x & y & z & _ & E & ->). apply IH in E. lia. }
        apply G in E1. lia.
  - destruct (typ_item i h) as [[h1 p1]|]; simpl; auto.
    rewrite IH. destruct (typ a h1) as [[h2 p2]|]; simpl; auto.
    destruct (typ b h2) as [[h3 p3]|]; simpl; auto. f_equal. f_equal. lia.
Qed.
Lemma typ_peak c h h' p : typ c h = Some (h', p) -> h <= p /\ h' <= p.
Proof.
  assert (G : forall c h a q, typ c h = Some (a, q) -> a <= q).
  { clear. induction c as [|i c IH]; simpl; intros h a q E.
    - inversion E; auto.
    - apply hseq_some in E. destruct E as (x & y & z & _ & E & ->). apply IH in E. lia. }
  intros E. split; [|eapply G; eauto].
  assert (E2 := typ_app [] c h). simpl in E2. rewrite E in E2. inversion E2. lia.
Qed.

(** Deeper stacks below do not matter. *)
Lemma op_ht_shift o d h h' : op_ht o h = Some h' -> op_ht o (d + h) = Some (d + h').
Proof.
  assert (N : forall t, 1 <= nargs t) by (intros t; unfold nargs; destruct (forallb _ _); lia).
  destruct o; unfold op_ht; intros H; try specialize (N t);
    try (destruct (_ <=? h) eqn:E; [|discriminate]; apply Nat.leb_le in E;
         match goal with |- context [?a <=? ?b] => replace (a <=? b) with true by (symmetry; apply Nat.leb_le; lia) end);
    inversion H; subst; f_equal; try lia.
Qed.
Lemma typ_shift d : forall c h h' p, typ c h = Some (h', p) -> typ c (d + h) = Some (d + h', d + p).
Proof.
  assert (I : forall i h h' p, typ_item i h = Some (h', p) -> typ_item i (d + h) = Some (d + h', d + p)).
  { intros i. induction i as [o|k b IHb|k b1 b2 IH1 IH2|k t b IHt IHb] using item_ind';
      intros h h' p H; rewrite typ_item_eq in *.
    - destruct (op_ht o h) eqn:E; [|discriminate]. inversion H; subst.
      rewrite (op_ht_shift _ d _ _ E). f_equal. f_equal. lia.
    - assert (B : forall h h' p, typ b h = Some (h', p) -> typ b (d + h) = Some (d + h', d + p)).
      { clear -IHb. induction IHb as [|i c Hi _ IH]; simpl; intros h h' p H.
        - inversion H; subst; auto.
        - apply hseq_some in H. destruct H as (x & y & z & E1 & E2 & ->).
          rewrite (Hi _ _ _ E1). simpl. rewrite (IH _ _ _ E2). f_equal. f_equal. lia. }
      destruct (1 <=? h) eqn:E; [|discriminate]. apply Nat.leb_le in E.
      replace (1 <=? d + h) with true by (symmetry; apply Nat.leb_le; lia).
      apply heq_some in H. destruct H as (q & E1 & E2). inversion E2; subst.
      replace (d + h' - 1) with (d + (h' - 1)) by lia. rewrite (B _ _ _ E1). simpl.
      rewrite Nat.eqb_refl. f_equal. f_equal. lia.
    - assert (B : forall b, Forall (fun i => forall h h' p, typ_item i h = Some (h', p) -> typ_item i (d + h) = Some (d + h', d + p)) b -> forall h h' p, typ b h = Some (h', p) -> typ b (d + h) = Some (d + h', d + p)).
      { clear. induction 1 as [|i c Hi _ IH]; simpl; intros h h' p H.
        - inversion H; subst; auto.
        - apply hseq_some in H. destruct H as (x & y & z & E1 & E2 & ->).
          rewrite (Hi _ _ _ E1). simpl. rewrite (IH _ _ _ E2). f_equal. f_equal. lia. }
      destruct (1 <=? h) eqn:E; [|discriminate]. apply Nat.leb_le in E.
      replace (1 <=? d + h) with true by (symmetry; apply Nat.leb_le; lia).
      apply heq_some in H. destruct H as (q & E1 & H).
      apply heq_some in H. destruct H as (q2 & E2 & H). inversion H; subst.
      replace (d + h' - 1) with (d + (h' - 1)) by lia.
      rewrite (B _ IH1 _ _ _ E1), (B _ IH2 _ _ _ E2). simpl.
      rewrite Nat.eqb_refl. f_equal. f_equal. lia.
    - assert (B : forall b, Forall (fun i => forall h h' p, typ_item i h = Some (h', p) -> typ_item i (d + h) = Some (d + h', d + p)) b -> forall h h' p, typ b h = Some (h', p) -> typ b (d + h) = Some (d + h', d + p)).
      { clear. induction 1 as [|i c Hi _ IH]; simpl; intros h h' p H.
        - inversion H; subst; auto.
        - apply hseq_some in H. destruct H as (x & y & z & E1 & E2 & ->).
          rewrite (Hi _ _ _ E1). simpl. rewrite (IH _ _ _ E2). f_equal. f_equal. lia. }
      apply heq_some in H. destruct H as (q & E1 & H).
      apply heq_some in H. destruct H as (q2 & E2 & H). inversion H; subst.
      rewrite (B _ IHt _ _ _ E1). simpl heq.
      replace (d + S h' =? S (d + h')) with true by (symmetry; apply Nat.eqb_eq; lia).
      rewrite (B _ IHb _ _ _ E2). simpl. rewrite Nat.eqb_refl. f_equal. f_equal. lia. }
  induction c as [|i c IH]; simpl; intros h h' p H.
  - inversion H; subst; auto.
  - apply hseq_some in H. destruct H as (x & y & z & E1 & E2 & ->).
    rewrite (I _ _ _ _ E1). simpl. rewrite (IH _ _ _ E2). f_equal. f_equal. lia.
Qed.

(** * Lowering: two neighbouring levels become one *)
Definition low (r k : nat) : nat := if k <=? r then k else k - 1.
Fixpoint merge (r : nat) (rho : env) : env :=
  match r, rho with
  | O, a :: b :: rest => Level (lv_layers a ++ lv_layers b) (lv_args b) :: rest
  | S r, a :: rest => a :: merge r rest
  | _, _ => rho
  end.
Definition low_op (r : nat) (o : op) : op :=
  match o with
  | OLoc k d => OLoc (low r k) d
  | OArg k i => OArg (low r k) i
  | OFld k i => OFld (low r k) i
  | OBlk b rho => OBlk b (merge r rho)
  | OSetLoc k d => OSetLoc (low r k) d
  | OSetArg k i => OSetArg (low r k) i
  | OSetFld k i => OSetFld (low r k) i
  | OIncFld k i => OIncFld (low r k) i
  | OIncFldPush k i => OIncFldPush (low r k) i
  | ORetNl k => match k - 1 with O => ORet | k => ORetNl k end
  | o => o
  end.
Fixpoint low_item (r : nat) (i : item) : item :=
  match i with
  | IOp o => IOp (low_op r o)
  | IThen k b => IThen k (map (low_item r) b)
  | IElse k b1 b2 => IElse k (map (low_item r) b1) (map (low_item r) b2)
  | ILoop k t b => ILoop k (map (low_item r) t) (map (low_item r) b)
  end.
Definition low_code (r : nat) (c : list item) : list item := map (low_item r) c.

Definition pull {S X} (r : nat) (μ : machine S X) : machine S X :=
  {| m_send := m_send μ; m_super := m_super μ; m_glob := m_glob μ; m_blk := m_blk μ;
     m_rd := fun k v => m_rd μ (low r k) v; m_wr := fun k v => m_wr μ (low r k) v;
     m_getf := fun k i => m_getf μ (low r k) i; m_setf := fun k i => m_setf μ (low r k) i;
     m_incf := fun k i => m_incf μ (low r k) i; m_inc := m_inc μ; m_dec := m_dec μ;
     m_nlr := fun k v s => match k - 1 with O => Retn v s | k => m_nlr μ k v s end |}.
Lemma lawful_pull {S X} r (μ : machine S X) : lawful μ -> lawful (pull r μ).
Proof. intros H k i s. apply H. Qed.

Lemma low_0 r : low r 0 = 0.
Proof. reflexivity. Qed.
Lemma exec_op_low {S X} r (μ : machine S X) o st s :
  exec_op μ (low_op r o) st s = exec_op (pull r μ) o st s.
Proof.
  destruct o; simpl; auto.
  destruct (k - 1); simpl; auto.
Qed.
Lemma exec_low {S X} r (μ : machine S X) : forall c n st s,
  exec μ (low_code r c) n st s = exec (pull r μ) c n st s.
Proof.
  assert (I : forall i n st s, exec_item μ (low_item r i) n st s = exec_item (pull r μ) i n st s).
  { assert (C : forall c, Forall (fun i => forall n st s,
        exec_item μ (low_item r i) n st s = exec_item (pull r μ) i n st s) c ->
      forall n st s, exec μ (map (low_item r) c) n st s = exec (pull r μ) c n st s).
    { induction 1 as [|i c Hi _ IH]; intros n st s; simpl; auto.
      rewrite Hi. apply bind_ext. auto. }
    intros i. induction i as [o|k b IHb|k b1 b2 IH1 IH2|k t b IHt IHb] using item_ind';
      intros n st s; simpl low_item; rewrite !exec_item_eq.
    - apply exec_op_low.
    - destruct st; simpl; auto. destruct (takes k v); auto.
    - destruct st; simpl; auto. destruct (takes k v); auto.
    - apply exec_loop_ext; auto. }
  induction c as [|i c IH]; intros n st s; simpl; auto.
  rewrite I. apply bind_ext. auto.
Qed.
Lemma op_ht_low r o h : op_ht (low_op r o) h = op_ht o h.
Proof. destruct o; simpl; auto. destruct (k - 1); auto. Qed.
Lemma typ_low r : forall c h, typ (low_code r c) h = typ c h.
Proof.
  assert (I : forall i h, typ_item (low_item r i) h = typ_item i h).
  { assert (C : forall c, Forall (fun i => forall h, typ_item (low_item r i) h = typ_item i h) c ->
      forall h, typ (map (low_item r) c) h = typ c h).
    { induction 1 as [|i c Hi _ IH]; intros h; simpl; auto.
      rewrite Hi. destruct (typ_item i h) as [[? ?]|]; simpl; auto. rewrite IH. auto. }
    intros i. induction i as [o|k b IHb|k b1 b2 IH1 IH2|k t b IHt IHb] using item_ind';
      intros h; simpl low_item; rewrite !typ_item_eq, ?op_ht_low, ?C by assumption; reflexivity. }
  induction c as [|i c IH]; intros h; simpl; auto.
  rewrite I. destruct (typ_item i h) as [[? ?]|]; simpl; auto.
  unfold low_code in IH. rewrite IH. auto.
Qed.
Lemma low_app r a b : low_code r (a ++ b) = low_code r a ++ low_code r b.
Proof. apply map_app. Qed.

Definition on_some {A} (P : A -> Prop) (o : option A) : Prop :=
  match o with Some a => P a | None => True end.
Section SrcInd.
Variable P : src -> Prop.
Hypothesis Hvar : forall n, P (SVar n).
Hypothesis Hlit : forall l, P (SLit l).
Hypothesis Hsend : forall sup r sel args, P r -> Forall P args -> P (SSend sup r sel args).
Hypothesis Hinc : forall e, P e -> P (SInc e).
Hypothesis Hdec : forall e, P e -> P (SDec e).
Hypothesis Hasgn : forall vs e, P e -> P (SAsgn vs e).
Hypothesis Hblk : forall label ps ls ss ret per, Forall P ss ->
  on_some P ret -> P (SBlk label ps ls ss ret per).
Fixpoint src_ind' (e : src) : P e :=
  let all := fix go (c : list src) : Forall P c :=
    match c with [] => Forall_nil P | i :: c => Forall_cons i (src_ind' i) (go c) end in
  match e with
  | SVar n => Hvar n
  | SLit l => Hlit l
  | SSend sup r sel args => Hsend sup r sel args (src_ind' r) (all args)
  | SInc e => Hinc e (src_ind' e)
  | SDec e => Hdec e (src_ind' e)
  | SAsgn vs e => Hasgn vs e (src_ind' e)
  | SBlk label ps ls ss ret per =>
      Hblk label ps ls ss ret per (all ss)
        (match ret as o return on_some P o with
         | Some e => src_ind' e | None => Logic.I end)
  end.
End SrcInd.

(** * Encoding *)
(** What code may touch from inside a level: a variable, a field of self, the home method. *)
Inductive acc := AVar (v : vref) | AFld | ANlr.
Definition allow := nat -> acc -> Prop.
Definition nest (A : allow) (out : acc -> Prop) : allow :=
  fun k => match k with O => out | S k => A k end.
Definition none : allow := fun _ _ => False.
(** The levels around a piece of code: declarations of the locals, names of the arguments. *)
Definition cx := list (list nat * list text).
Definition cslot (C : cx) (k i : nat) : option nat := slot (map fst C) k i.

Definition enc_jump (b : bc) (off : nat) (j : list nat) : Prop :=
  j = [num b; off; 0] \/ exists x y, j = [num b + NUM_SINGLE; x; y] /\ off = x + y * 256.

(** Code without answers, as it is before the end of a block. *)
Definition op_noret (o : op) : bool :=
  match o with ORet | ORetSelf | ORetFld _ => false | _ => true end.
Fixpoint noret_item (i : item) : bool :=
  match i with
  | IOp o => op_noret o
  | IThen _ b => forallb noret_item b
  | IElse _ b1 b2 => forallb noret_item b1 && forallb noret_item b2
  | ILoop _ t b => forallb noret_item t && forallb noret_item b
  end.
Definition noret (c : list item) : bool := forallb noret_item c.

(** What runs when the block is inlined: without the final return_local. *)
Definition inl_part (body : list item) (fin : op) : list item :=
  match fin with ORet => body | _ => body ++ [IOp fin] end.
Definition plain_locals (ls : list (text * nat)) : list local :=
  map (fun l => (Plain (fst l), snd l)) ls.

(** nil, true and false are pushed as constants. *)
Definition plain_global (t : text) : bool :=
  negb (text_eqb t t_nil) && negb (text_eqb t t_true) && negb (text_eqb t t_false).

(** The block literals of a piece of code. *)
Fixpoint oblks_item (i : item) : list (src * env) :=
  match i with
  | IOp (OBlk b rho) => [(b, rho)]
  | IOp _ => []
  | IThen _ b => flat_map oblks_item b
  | IElse _ b1 b2 => flat_map oblks_item b1 ++ flat_map oblks_item b2
  | ILoop _ t b => flat_map oblks_item t ++ flat_map oblks_item b
  end.
Definition oblks (c : list item) : list (src * env) := flat_map oblks_item c.
Lemma oblks_app a b : oblks (a ++ b) = oblks a ++ oblks b.
Proof. apply flat_map_app. Qed.
Lemma oblks_low r c : oblks (low_code r c) = map (fun p => (fst p, merge r (snd p))) (oblks c).
Proof.
  assert (CC : forall c, Forall (fun i => oblks_item (low_item r i) = map (fun p => (fst p, merge r (snd p))) (oblks_item i)) c ->
    flat_map oblks_item (map (low_item r) c) = map (fun p => (fst p, merge r (snd p))) (flat_map oblks_item c)).
  { induction 1 as [|i c' Hi _ IH]; simpl; auto. rewrite map_app, Hi, IH. reflexivity. }
  apply CC. clear CC. apply Forall_forall. intros i _.
  induction i as [o|k b IHb|k b1 b2 IH1 IH2|k t b IHt IHb] using item_ind'.
  - destruct o; try reflexivity. simpl. destruct (k - 1); reflexivity.
  - simpl. induction IHb as [|i c' Hi _ IH]; simpl; auto. rewrite map_app, Hi, IH. reflexivity.
  - simpl. rewrite map_app. f_equal.
    + clear IH2. induction IH1 as [|i c' Hi _ IH]; simpl; auto. rewrite map_app, Hi, IH. reflexivity.
    + clear IH1. induction IH2 as [|i c' Hi _ IH]; simpl; auto. rewrite map_app, Hi, IH. reflexivity.
  - simpl. rewrite map_app. f_equal.
    + clear IHb. induction IHt as [|i c' Hi _ IH]; simpl; auto. rewrite map_app, Hi, IH. reflexivity.
    + clear IHt. induction IHb as [|i c' Hi _ IH]; simpl; auto. rewrite map_app, Hi, IH. reflexivity.
Qed.

Section Enc.
Variable fields : list text.

Definition block_sem (rho : env) (ps : list text) (ls : list (text * nat)) (ss : list src)
  (ret : option src) (code : list item) : Prop :=
  forall (S X : Type) (μ : machine S X), lawful μ -> forall n st s,
  exec μ code n st s =
  bind (eval_block fields ss ret μ (add_level ps ls rho) n s) (fun v s => Done (v :: st) s).

Definition triv_ok (tr : option triv) (rho : env) (body : list item) (fin : op) : Prop :=
  match tr with
  | None => True
  | Some (TLit l) => exists v, lit_value l = Some v /\ body = [IOp (OLit v)] /\ fin = ORet
  | Some (TGlob t _) => body = [IOp (OGlob t)] /\ fin = ORet /\ plain_global t = true
  | Some (TFld i k) => body = [IOp (OFld k i)] /\ fin = ORet /\ k = length rho
  | Some (TFldW _ _) => False
  end.
Definition out_ok (na : nat) (out : acc -> Prop) : Prop :=
  forall a, out a -> exists v, a = AVar v /\ match v with VArg i => 0 < i < na | VLoc _ => True end.

Inductive enc_op : cx -> list literal -> allow -> op -> bc -> list nat -> Prop :=
| E_const C ls (A : allow) v i l : nth_error ls i = Some l -> lit_value l = Some v ->
    enc_op C ls A (OLit v) B_push_constant [num B_push_constant; i]
| E_const0 C ls (A : allow) v l : nth_error ls 0 = Some l -> lit_value l = Some v ->
    enc_op C ls A (OLit v) B_push_constant_0 [num B_push_constant_0]
| E_const1 C ls (A : allow) v l : nth_error ls 1 = Some l -> lit_value l = Some v ->
    enc_op C ls A (OLit v) B_push_constant_1 [num B_push_constant_1]
| E_const2 C ls (A : allow) v l : nth_error ls 2 = Some l -> lit_value l = Some v ->
    enc_op C ls A (OLit v) B_push_constant_2 [num B_push_constant_2]
| E_0 C ls (A : allow) : enc_op C ls A (OLit (VInt 0)) B_push_0 [num B_push_0]
| E_1 C ls (A : allow) : enc_op C ls A (OLit (VInt 1)) B_push_1 [num B_push_1]
| E_nil C ls (A : allow) : enc_op C ls A (OLit VNil) B_push_nil [num B_push_nil]
| E_loc C ls (A : allow) k i d : cslot C k i = Some d -> (k <> 0 -> A k (AVar (VLoc d))) ->
    enc_op C ls A (OLoc k d) B_push_local [num B_push_local; i; k]
| E_setloc C ls (A : allow) k i d : cslot C k i = Some d -> (k <> 0 -> A k (AVar (VLoc d))) ->
    enc_op C ls A (OSetLoc k d) B_pop_local [num B_pop_local; i; k]
| E_arg C ls (A : allow) k i : (k <> 0 -> A k (AVar (VArg i))) ->
    enc_op C ls A (OArg k i) B_push_argument [num B_push_argument; i; k]
| E_setarg C ls (A : allow) k i : (k <> 0 -> A k (AVar (VArg i))) ->
    enc_op C ls A (OSetArg k i) B_pop_argument [num B_pop_argument; i; k]
| E_fld C ls (A : allow) k i : (k <> 0 -> A k AFld) ->
    enc_op C ls A (OFld k i) B_push_field [num B_push_field; i; k]
| E_fld0 C ls (A : allow) : enc_op C ls A (OFld 0 0) B_push_field_0 [num B_push_field_0]
| E_fld1 C ls (A : allow) : enc_op C ls A (OFld 0 1) B_push_field_1 [num B_push_field_1]
| E_setfld C ls (A : allow) k i : (k <> 0 -> A k AFld) ->
    enc_op C ls A (OSetFld k i) B_pop_field [num B_pop_field; i; k]
| E_setfld0 C ls (A : allow) : enc_op C ls A (OSetFld 0 0) B_pop_field_0 [num B_pop_field_0]
| E_setfld1 C ls (A : allow) : enc_op C ls A (OSetFld 0 1) B_pop_field_1 [num B_pop_field_1]
| E_incfld C ls (A : allow) k i : (k <> 0 -> A k AFld) ->
    enc_op C ls A (OIncFld k i) B_inc_field [num B_inc_field; i; k]
| E_incfldpush C ls (A : allow) k i : (k <> 0 -> A k AFld) ->
    enc_op C ls A (OIncFldPush k i) B_inc_field_push [num B_inc_field_push; i; k]
| E_glob C ls (A : allow) i t : nth_error ls i = Some (LS t) -> plain_global t = true ->
    enc_op C ls A (OGlob t) B_push_global [num B_push_global; i]
| E_blk C ls (A : allow) i m b rho : nth_error ls i = Some (LM m) -> map lv_args rho = map snd C ->
    impl C A rho b m ->
    enc_op C ls A (OBlk b rho) B_push_block [num B_push_block; i]
| E_blk_no C ls (A : allow) i m b rho : nth_error ls i = Some (LM m) -> map lv_args rho = map snd C ->
    impl C none rho b m ->
    enc_op C ls A (OBlk b rho) B_push_block_no_ctx [num B_push_block_no_ctx; i]
| E_dup C ls (A : allow) : enc_op C ls A ODup B_dup [num B_dup]
| E_pop C ls (A : allow) : enc_op C ls A OPop B_pop [num B_pop]
| E_inc C ls (A : allow) : enc_op C ls A OInc B_inc [num B_inc]
| E_dec C ls (A : allow) : enc_op C ls A ODec B_dec [num B_dec]
| E_send C ls (A : allow) i t : nth_error ls i = Some (LS t) ->
    enc_op C ls A (OSend t) (send_bc (nargs t)) [num (send_bc (nargs t)); i]
| E_super C ls (A : allow) i t : nth_error ls i = Some (LS t) ->
    enc_op C ls A (OSuper t) B_super_send [num B_super_send; i]
| E_ret C ls (A : allow) : enc_op C ls A ORet B_return_local [num B_return_local]
| E_retnl C ls (A : allow) k : k <> 0 -> A k ANlr ->
    enc_op C ls A (ORetNl k) B_return_non_local [num B_return_non_local; k]
| E_retself C ls (A : allow) : enc_op C ls A ORetSelf B_return_self [num B_return_self]
| E_retfld0 C ls (A : allow) : enc_op C ls A (ORetFld 0) B_return_field_0 [num B_return_field_0]
| E_retfld1 C ls (A : allow) : enc_op C ls A (ORetFld 1) B_return_field_1 [num B_return_field_1]
| E_retfld2 C ls (A : allow) : enc_op C ls A (ORetFld 2) B_return_field_2 [num B_return_field_2]
(** Code at an address; the loops in it, in the order of their ends and of their begins. *)
with enc : cx -> list literal -> allow -> nat -> list item -> list nat ->
           list (nat * nat) -> list (nat * nat) -> Prop :=
| En C ls (A : allow) i : enc C ls A i [] [] [] []
| Eo C ls (A : allow) i o b bo c bs L P : enc_op C ls A o b bo -> enc C ls A (i + length bo) c bs L P ->
    enc C ls A i (IOp o :: c) (bo ++ bs) L P
| Et C ls (A : allow) i k b bb Lb Pb j c bs L P :
    enc C ls A (i + 3) b bb Lb Pb -> enc_jump (jump_bc k false) (3 + length bb) j ->
    enc C ls A (i + 3 + length bb) c bs L P ->
    enc C ls A i (IThen k b :: c) (j ++ bb ++ bs) (Lb ++ L) (Pb ++ P)
| Ee C ls (A : allow) i k b1 b2 bb1 bb2 L1 P1 L2 P2 j1 j2 c bs L P :
    enc C ls A (i + 3) b1 bb1 L1 P1 -> enc_jump (jump_bc k true) (3 + length bb1 + 3) j1 ->
    enc C ls A (i + 3 + length bb1 + 3) b2 bb2 L2 P2 -> enc_jump B_jump (3 + length bb2) j2 ->
    bb2 <> [] ->
    enc C ls A (i + 3 + length bb1 + 3 + length bb2) c bs L P ->
    enc C ls A i (IElse k b1 b2 :: c) (j1 ++ bb1 ++ j2 ++ bb2 ++ bs) (L1 ++ L2 ++ L) (P1 ++ P2 ++ P)
| El C ls (A : allow) i k t b bt bb Lt Pt Lb Pb j1 j2 c bs L P :
    enc C ls A i t bt Lt Pt -> enc_jump (jump_bc k true) (3 + length bb + 3) j1 ->
    enc C ls A (i + length bt + 3) b bb Lb Pb ->
    enc_jump B_jump_backward (length bt + 3 + length bb) j2 ->
    enc C ls A (i + length bt + 3 + length bb + 3) c bs L P ->
    enc C ls A i (ILoop k t b :: c) (bt ++ j1 ++ bb ++ j2 ++ bs)
      (Lt ++ Lb ++ (i, i + length bt + 3 + length bb) :: L)
      ((i, i + length bt + 3 + length bb) :: Pt ++ Pb ++ P)
(** [m] implements the block literal [b] in environment [rho]. *)
with impl : cx -> allow -> env -> src -> meth -> Prop :=
| Impl C (A : allow) rho label ps ls ss ret per out bytes lits locals loops P mx tr body fin p :
    ok_src (SBlk label ps ls ss ret per) = true ->
    (exists qs, locals = plain_locals ls ++ qs) ->
    out_ok (S (length ps)) out ->
    enc ((map snd locals, t_block_self :: ps) :: C) lits (nest A out) 0
        (body ++ [IOp fin]) bytes loops P ->
    noret body = true ->
    (match fin with ORet => True | ORetNl k => k = length rho | _ => False end) ->
    block_sem rho ps ls ss ret (inl_part body fin) ->
    triv_ok tr rho body fin ->
    typ (body ++ [IOp fin]) 0 = Some (1, p) -> (Z.of_nat p <= mx)%Z ->
    oblks body = created_body ss ret (add_level ps ls rho) ->
    impl C A rho (SBlk label ps ls ss ret per)
      (Meth label bytes lits locals (S (length ps)) loops mx tr).
End Enc.

Scheme enc_op_mut := Minimality for enc_op Sort Prop
with enc_mut := Minimality for enc Sort Prop
with impl_mut := Minimality for impl Sort Prop.
Combined Scheme enc_all from enc_op_mut, enc_mut, impl_mut.
