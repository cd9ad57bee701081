(** The interpreter runs the bytes of structured code as the structured code runs. *)
From Coq Require Import ZArith Bool String Ascii List Lia.
From Verif Require Import Base LexModel ParseModel BcModel BcInterp BcSpec BcCode.
Import ListNotations.
Open Scope nat_scope.
Open Scope list_scope.

Lemma nth_pre {A} (pre : list A) x rest : nth_error (pre ++ x :: rest) (length pre) = Some x.
Proof. rewrite nth_error_app2, Nat.sub_diag by lia. reflexivity. Qed.
Lemma nth_pre1 {A} (pre : list A) x y rest :
  nth_error (pre ++ x :: y :: rest) (length pre + 1) = Some y.
Proof. rewrite nth_error_app2 by lia. replace (length pre + 1 - length pre) with 1 by lia. reflexivity. Qed.
Lemma nth_pre2 {A} (pre : list A) x y z rest :
  nth_error (pre ++ x :: y :: z :: rest) (length pre + 2) = Some z.
Proof. rewrite nth_error_app2 by lia. replace (length pre + 2 - length pre) with 2 by lia. reflexivity. Qed.

Lemma num_of b : of_num (num b) = Some b.
Proof. destruct b; reflexivity. Qed.

Lemma nargs_pos t : 1 <= nargs t.
Proof. unfold nargs. destruct (forallb _ _); lia. Qed.

Section Sim.
Context {S X : Type}.
Variable μ : machine S X.
Variable fields : list text.
Variable cap : nat.
Variable C : cx.
Variable lits : list literal.
Variable bs : list nat.
Notation step := (step μ cap (map fst C) lits bs).
Notation run := (run μ cap (map fst C) lits bs).

Lemma push_ok v pc st s : length st < cap -> @push S X cap v pc st s = Done (pc, v :: st) s.
Proof. intros H. unfold push. replace (length st <? cap) with true by (symmetry; apply Nat.ltb_lt; lia). auto. Qed.

Lemma do_send_ok (f : text -> list value -> S -> out S X value) n t pc st s :
  n = nargs t -> nargs t <= length st <= cap ->
  do_send cap f n t pc st s =
  bind (popn (nargs t) st (fun args r => bind (f t args s) (fun v s => Done (v :: r) s)))
       (fun st s => Done (pc, st) s).
Proof.
  intros -> H. unfold do_send, popn.
  replace (nargs t <=? length st) with true by (symmetry; apply Nat.leb_le; lia).
  rewrite bind_assoc. apply bind_ext. intros v s'. simpl.
  apply push_ok. rewrite skipn_length. pose proof (nargs_pos t). lia.
Qed.

Lemma step_op A o b bo pre post st s h' :
  enc_op fields C lits A o b bo -> bs = pre ++ bo ++ post ->
  op_ht o (length st) = Some h' -> h' <= cap -> length st <= cap ->
  step (length pre) st s =
  bind (exec_op μ o st s) (fun st s => Done (length pre + length bo, st) s).
Proof.
  intros H Hb Ht Hc Hl. unfold BcInterp.step.
  inversion H; subst; cbn [length app] in *; rewrite nth_pre;
    repeat (rewrite nth_pre1 || rewrite nth_pre2);
    try (unfold need; rewrite num_of; cbn -[slot popn do_send push lit_val lit_sym lit_label of_num num BcInterp.step nth_error]);
    rewrite ?nth_pre1, ?nth_pre2; cbn [need];
    unfold op_ht in Ht;
    try (destruct (1 <=? length st) eqn:E1; [|discriminate]; apply Nat.leb_le in E1;
         destruct st as [|v0 st]; [cbn in E1; lia|]; cbn [length] in *);
    try (inversion Ht; subst; clear Ht).
  all: try (rewrite ?bind_assoc; reflexivity).
  all: try (rewrite push_ok by (cbn; lia); reflexivity).
  all: try (unfold pop; rewrite ?push_ok by (cbn; lia); rewrite ?bind_assoc; try reflexivity;
            try (apply bind_ext; intros; rewrite ?push_ok by (cbn; lia); reflexivity)).
  - unfold lit_val. rewrite H0, H1. rewrite push_ok by lia. reflexivity.
  - unfold lit_val. rewrite H0, H1. rewrite push_ok by lia. reflexivity.
  - unfold lit_val. rewrite H0, H1. rewrite push_ok by lia. reflexivity.
  - unfold lit_val. rewrite H0, H1. rewrite push_ok by lia. reflexivity.
  - unfold cslot in H0. rewrite H0. apply bind_ext; intros; rewrite push_ok by lia; reflexivity.
  - unfold cslot in H0. rewrite H0. reflexivity.
  - unfold lit_sym. rewrite H0. apply bind_ext; intros; rewrite push_ok by lia; reflexivity.
  - unfold lit_label. rewrite H0. destruct H2. cbn [me_label label_of]. apply bind_ext; intros; rewrite push_ok by lia; reflexivity.
  - unfold lit_label. rewrite H0. destruct H2. cbn [me_label label_of]. apply bind_ext; intros; rewrite push_ok by lia; reflexivity.
  - destruct (nargs t <=? length st) eqn:E1; [|discriminate]. apply Nat.leb_le in E1.
    assert (G : forall n b, num b = n -> True) by auto.
    remember (nargs t) as na eqn:Ena.
    destruct na as [|[|[|[|na]]]]; cbn [send_bc]; cbn -[popn do_send lit_sym];
      unfold lit_sym; rewrite H0; rewrite do_send_ok by lia; rewrite <- ?Ena; reflexivity.
  - destruct (nargs t <=? length st) eqn:E1; [|discriminate]. apply Nat.leb_le in E1.
    unfold lit_sym. rewrite H0. rewrite do_send_ok by lia. reflexivity.
Qed.

Definition jump_sem (k : jkind) (pc off : nat) (st : list value) (s : S)
  : out S X (nat * list value) :=
  match k with
  | JAlways => Done (pc + off, st) s
  | JBack => if off <=? pc then Done (pc - off, st) s else Stuck
  | JTop c => pop st (fun v r =>
      if takes c v then Done (pc + off, left_value c v :: r) s else Done (pc + 3, r) s)
  | JPop c => pop st (fun v r =>
      if takes c v then Done (pc + off, r) s else Done (pc + 3, r) s)
  end.
Lemma step_jump b k off j pre post st s :
  enc_jump b off j -> bs = pre ++ j ++ post -> jump_form b = Some (k, false) ->
  step (length pre) st s = jump_sem k (length pre) off st s.
Proof.
  intros Hj Hb Hk. unfold BcInterp.step.
  destruct Hj as [-> | (x & y & -> & ->)]; subst bs; cbn [app]; rewrite nth_pre, nth_pre1, nth_pre2.
  - unfold need. rewrite num_of, Hk.
    assert (E : blen b = 3) by (destruct b; try discriminate; reflexivity).
    rewrite E. reflexivity.
  - assert (E : exists b', of_num (num b + NUM_SINGLE) = Some b' /\ jump_form b' = Some (k, true) /\ blen b' = 3).
    { destruct b; inversion Hk; subst; eexists; repeat split; reflexivity. }
    destruct E as (b' & E1 & E2 & E3). unfold need. rewrite E1, E2, E3. reflexivity.
Qed.
Lemma jump_form_jump k p : jump_form (jump_bc k p) = Some (if p then JPop k else JTop k, false).
Proof. destruct k, p; reflexivity. Qed.

Lemma run_mono k j pc st s : run k pc st s <> Hang -> run (k + j) pc st s = run k pc st s.
Proof.
  revert pc st s. induction k as [|k IH]; simpl; intros pc st s H; [congruence|].
  destruct (step pc st s); simpl in *; auto.
Qed.
Lemma run_hang_le k k' pc st s : run k pc st s = Hang -> k' <= k -> run k' pc st s = Hang.
Proof.
  intros H Hl. destruct (run k' pc st s) eqn:E; auto;
    replace k with (k' + (k - k')) in H by lia;
    rewrite run_mono in H by congruence; congruence.
Qed.

(** From address [i] with [h] operands, the bytes do what [f] does and end at [j]. *)
Definition sim (f : nat -> list value -> S -> out S X (list value)) (i j h : nat) : Prop :=
  forall n st s, length st = h ->
  (f n st s <> Hang ->
   exists k, forall k', run (k + k') i st s = bind (f n st s) (fun st s => run k' j st s)) /\
  (f n st s = Hang -> forall k, k <= n -> run k i st s = Hang).
Definition hts (f : nat -> list value -> S -> out S X (list value)) (h h' : nat) : Prop :=
  forall n st s st' s', length st = h -> f n st s = Done st' s' -> length st' = h'.

Lemma sim_ext f g i j h : (forall n st s, f n st s = g n st s) -> sim f i j h -> sim g i j h.
Proof. intros E H n st s Hl. rewrite <- E. apply H; auto. Qed.
Lemma sim_seq f g i j l h h' :
  sim f i j h -> hts f h h' -> sim g j l h' ->
  sim (fun n st s => bind (f n st s) (fun st s => g n st s)) i l h.
Proof.
  intros Hf Hh Hg n st s Hl. destruct (Hf n st s Hl) as [F1 F2].
  destruct (f n st s) as [st1 s1|v s1|x s1| |] eqn:E.
  - destruct F1 as [k1 F1]; [discriminate|]. simpl in *.
    destruct (Hg n st1 s1 (Hh _ _ _ _ _ Hl E)) as [G1 G2]. split.
    + intros Hn. destruct (G1 Hn) as [k2 G]. exists (k1 + k2). intros k'.
      rewrite <- Nat.add_assoc, F1. apply G.
    + intros Hn k Hk. apply run_hang_le with (k := k1 + k); [|lia].
      rewrite F1. apply G2; auto.
  - split; [|discriminate]. intros _. destruct F1 as [k1 F1]; [discriminate|]. exists k1. auto.
  - split; [|discriminate]. intros _. destruct F1 as [k1 F1]; [discriminate|]. exists k1. auto.
  - split; [simpl; congruence|]. intros _. apply F2; auto.
  - split; [|discriminate]. intros _. destruct F1 as [k1 F1]; [discriminate|]. exists k1. auto.
Qed.
(** One bytecode. *)
Lemma sim_one (f : nat -> list value -> S -> out S X (list value)) i j h :
  (forall n st s, length st = h -> step i st s = bind (f n st s) (fun st s => Done (j, st) s)) ->
  sim f i j h.
Proof.
  intros H n st s Hl. split.
  - intros _. exists 1. intros k'. simpl. rewrite (H n) by auto. rewrite bind_assoc. reflexivity.
  - intros E k _. destruct k; auto. simpl. rewrite (H n) by auto. rewrite E. reflexivity.
Qed.
Lemma sim_nil i h : sim (fun _ st s => Done st s) i i h.
Proof. intros n st s _. split; [|discriminate]. intros _. exists 0. auto. Qed.

(** After a jump bytecode: what follows starts at one of two addresses. *)
Lemma sim_then c f g i i1 j1 j h (Hh : 1 <= h) :
  (forall st s, step i st s = jump_sem (JTop c) i (j - i) st s) -> i1 = i + 3 -> i <= j -> j1 = j ->
  sim f i1 j1 (h - 1) ->
  (forall n st s, g n st s = pop st (fun v r => if takes c v then Done (left_value c v :: r) s else f n r s)) ->
  sim g i j h.
Proof.
  intros Hs -> Hij -> Hf Hg n st s Hl. rewrite Hg. destruct st as [|v r]; [cbn in Hl; lia|].
  cbn [pop]. cbn in Hl.
  assert (E : step i (v :: r) s =
     if takes c v then Done (j, left_value c v :: r) s else Done (i + 3, r) s).
  { rewrite Hs. unfold jump_sem, pop. replace (i + (j - i)) with j by lia. reflexivity. }
  destruct (takes c v).
  - split; [|discriminate]. intros _. exists 1. intros k'. simpl. rewrite E. reflexivity.
  - destruct (Hf n r s) as [F1 F2]; [lia|]. split.
    + intros Hn. destruct (F1 Hn) as [k F]. exists (Datatypes.S k). intros k'. simpl. rewrite E. apply F.
    + intros Hn k Hk. destruct k; auto. simpl. rewrite E. simpl. apply F2; auto. lia.
Qed.
Lemma sim_else c f1 f2 g i i1 i2 jm j h (Hh : 1 <= h) :
  (forall st s, step i st s = jump_sem (JPop c) i (i2 - i) st s) -> i1 = i + 3 -> i <= i2 ->
  sim f1 i1 jm (h - 1) ->
  (forall st s, step jm st s = jump_sem JAlways jm (j - jm) st s) -> jm <= j ->
  sim f2 i2 j (h - 1) ->
  (forall n st s, g n st s = pop st (fun v r => if takes c v then f2 n r s else f1 n r s)) ->
  sim g i j h.
Proof.
  intros Hs -> Hij Hf1 Hm Hmj Hf2 Hg n st s Hl. rewrite Hg. destruct st as [|v r]; [cbn in Hl; lia|].
  cbn [pop]. cbn in Hl.
  assert (E : step i (v :: r) s = if takes c v then Done (i2, r) s else Done (i + 3, r) s).
  { rewrite Hs. unfold jump_sem, pop. replace (i + (i2 - i)) with i2 by lia. reflexivity. }
  destruct (takes c v).
  - destruct (Hf2 n r s) as [F1 F2]; [lia|]. split.
    + intros Hn. destruct (F1 Hn) as [k F]. exists (Datatypes.S k). intros k'. simpl. rewrite E. apply F.
    + intros Hn k Hk. destruct k; auto. simpl. rewrite E. simpl. apply F2; auto. lia.
  - destruct (Hf1 n r s) as [F1 F2]; [lia|]. split.
    + intros Hn. destruct (F1 Hn) as [k F]. exists (Datatypes.S (k + 1)). intros k'.
      cbn [Nat.add]. cbn [BcInterp.run]. rewrite E. cbn [bind fst snd].
      rewrite <- Nat.add_assoc. rewrite F. apply bind_ext. intros st1 s1.
      cbn [Nat.add BcInterp.run]. rewrite Hm. unfold jump_sem. cbn [bind fst snd].
      replace (jm + (j - jm)) with j by lia. reflexivity.
    + intros Hn k Hk. destruct k; auto. simpl. rewrite E. simpl. apply F2; auto. lia.
Qed.
Lemma sim_loop c t b i i1 i2 ib j h :
  sim t i i1 h -> hts t h (Datatypes.S h) ->
  (forall st s, step i1 st s = jump_sem (JPop c) i1 (j - i1) st s) -> i2 = i1 + 3 -> i1 <= j ->
  sim b i2 ib h -> hts b h h ->
  (forall st s, step ib st s = jump_sem JBack ib (ib - i) st s) -> i <= ib ->
  sim (fun n st s => exec_loop n t b c st s) i j h.
Proof.
  intros Ht Tt Hs -> Hij Hb Tb Hback Hib.
  assert (E : forall v r s, step i1 (v :: r) s = if takes c v then Done (j, r) s else Done (i1 + 3, r) s).
  { intros. rewrite Hs. unfold jump_sem, pop. replace (i1 + (j - i1)) with j by lia. reflexivity. }
  assert (EB : forall st s, step ib st s = Done (i, st) s).
  { intros. rewrite Hback. unfold jump_sem. replace (ib - i <=? ib) with true by (symmetry; apply Nat.leb_le; lia).
    replace (ib - (ib - i)) with i by lia. auto. }
  (* the loop with fuel m, tests and bodies with fuel N *)
  assert (G : forall n st s, length st = h ->
    (exec_loop n t b c st s <> Hang ->
     exists k, forall k', run (k + k') i st s = bind (exec_loop n t b c st s) (fun st s => run k' j st s)) /\
    (exec_loop n t b c st s = Hang -> forall k, k <= n -> run k i st s = Hang)).
  { induction n as [|n IH]; intros st s Hl.
    { simpl. split; [congruence|]. intros _ k Hk. replace k with 0 by lia. reflexivity. }
    simpl. destruct (Ht (Datatypes.S n) st s Hl) as [T1 T2].
    destruct (t (Datatypes.S n) st s) as [st1 s1|v1 s1|x1 s1| |] eqn:Et; simpl;
      try (split; [intros _; destruct T1 as [k1 T1]; [discriminate|]; exists k1; auto|discriminate]).
    2: { split; [congruence|]. intros _. apply T2. auto. }
    destruct T1 as [k1 T1]; [discriminate|]. clear T2. simpl in T1.
    pose proof (Tt _ _ _ _ _ Hl Et) as Hl1.
    destruct st1 as [|v r]; [discriminate|]. cbn in Hl1. injection Hl1 as Hl1. cbn [pop].
    destruct (takes c v) eqn:Ec.
    { split; [|discriminate]. intros _. exists (k1 + 1). intros k'. rewrite <- Nat.add_assoc, T1.
      cbn [Nat.add BcInterp.run]. rewrite E, Ec. reflexivity. }
    destruct (Hb (Datatypes.S n) r s1 Hl1) as [B1 B2].
    destruct (b (Datatypes.S n) r s1) as [st2 s2|v2 s2|x2 s2| |] eqn:Eb; simpl;
      try (split; [intros _; destruct B1 as [k2 B1]; [discriminate|]; exists (k1 + (1 + k2)); intros k';
                   rewrite <- Nat.add_assoc, T1; cbn [Nat.add BcInterp.run]; rewrite E, Ec; apply B1 |discriminate]).
    2: { split; [congruence|]. intros _ k Hk. apply run_hang_le with (k := k1 + (1 + k)); [|lia].
         rewrite T1. cbn [Nat.add BcInterp.run]. rewrite E, Ec. simpl. apply B2; auto. }
    destruct B1 as [k2 B1]; [discriminate|]. clear B2. simpl in B1.
    pose proof (Tb _ _ _ _ _ Hl1 Eb) as Hl2.
    destruct (IH st2 s2 Hl2) as [I1 I2]. split.
    - intros Hn. destruct (I1 Hn) as [k3 I]. exists (k1 + (1 + (k2 + (1 + k3)))). intros k'.
      replace (k1 + (1 + (k2 + (1 + k3))) + k') with (k1 + (1 + (k2 + (1 + (k3 + k'))))) by lia.
      rewrite T1. cbn [Nat.add BcInterp.run]. rewrite E, Ec. cbn [bind fst snd]. rewrite B1.
      cbn [Nat.add BcInterp.run]. rewrite EB. cbn [bind fst snd]. apply I.
    - intros Hn k Hk. destruct k; [reflexivity|].
      apply run_hang_le with (k := k1 + (1 + (k2 + (1 + k)))); [|lia].
      rewrite T1. cbn [Nat.add BcInterp.run]. rewrite E, Ec. cbn [bind fst snd]. rewrite B1.
      cbn [Nat.add BcInterp.run]. rewrite EB. cbn [bind fst snd]. apply I2; auto. lia. }
  intros n st s Hl. apply G. auto.
Qed.

Lemma op_ht_exec o h h' : op_ht o h = Some h' -> hts (fun _ st s => exec_op μ o st s) h h'.
Proof.
  intros H n st s st' s' Hl E.
  destruct o; unfold op_ht in H; cbn in E;
    try (destruct (1 <=? h) eqn:E1; [|discriminate]; apply Nat.leb_le in E1;
         destruct st as [|v0 st]; [cbn in Hl; lia|]; cbn in E, Hl);
    try (unfold popn in E; destruct (nargs t <=? h) eqn:E1; [|discriminate];
         destruct (nargs t <=? length st) eqn:E2; [|discriminate]);
    repeat (match goal with
            | H : bind ?m _ = Done _ _ |- _ => destruct m eqn:?; cbn in H; try discriminate
            end);
    inversion H; inversion E; subst; cbn; rewrite ?skipn_length; lia.
Qed.
Lemma hts_seq f g h h' h'' : hts f h h' -> hts g h' h'' ->
  hts (fun n st s => bind (f n st s) (fun st s => g n st s)) h h''.
Proof.
  intros Hf Hg n st s st' s' Hl E. destruct (f n st s) eqn:F; cbn in E; try discriminate.
  eapply Hg; [|exact E]. eapply Hf; eauto.
Qed.
Lemma hts_loop t b k h : hts t h (Datatypes.S h) -> hts b h h ->
  hts (fun n => exec_loop n t b k) h h.
Proof.
  intros Ht Hb n. induction n as [|n IH]; intros st s st' s' Hl E; [discriminate|].
  simpl in E. destruct (t (Datatypes.S n) st s) as [st1 s1| | | |] eqn:F; try discriminate.
  cbn in E. apply Ht in F; auto. destruct st1 as [|v r]; [discriminate|]. cbn in E, F.
  destruct (takes k v).
  - inversion E; subst. lia.
  - destruct (b (Datatypes.S n) r s1) as [st2 s2| | | |] eqn:G; try discriminate. cbn in E.
    apply Hb in G; [|lia]. eapply IH; eauto.
Qed.
Lemma typ_hts : forall c h h' p, typ c h = Some (h', p) -> hts (exec μ c) h h'.
Proof.
  assert (I : forall i h h' p, typ_item i h = Some (h', p) -> hts (exec_item μ i) h h').
  { assert (CC : forall c, Forall (fun i => forall h h' p, typ_item i h = Some (h', p) -> hts (exec_item μ i) h h') c ->
      forall h h' p, typ c h = Some (h', p) -> hts (exec μ c) h h').
    { induction 1 as [|i c Hi _ IH]; intros h h' p H; simpl in H.
      - inversion H; subst. intros n st s st' s' Hl E. inversion E; subst; auto.
      - apply hseq_some in H. destruct H as (x & y & z & E1 & E2 & ->).
        intros n st s st' s' Hl E. simpl in E.
        apply (hts_seq _ _ _ _ _ (Hi _ _ _ E1) (IH _ _ _ E2) n st s st' s' Hl E). }
    intros i. induction i as [o|k b IHb|k b1 b2 IH1 IH2|k t b IHt IHb] using item_ind';
      intros h h' p H; rewrite typ_item_eq in H; intros n st s st' s' Hl E; rewrite exec_item_eq in E.
    - destruct (op_ht o h) eqn:F; [|discriminate]. inversion H; subst.
      apply (op_ht_exec _ _ _ F n st s st' s' eq_refl E).
    - destruct (1 <=? h) eqn:E1; [|discriminate]. apply Nat.leb_le in E1.
      apply heq_some in H. destruct H as (q & H1 & H2). inversion H2; subst.
      destruct st as [|v r]; [discriminate|]. cbn in E, H1, E1. rewrite Nat.sub_0_r in H1. cbn.
      destruct (takes k v).
      + inversion E; subst. auto.
      + apply (CC _ IHb _ _ _ H1 _ _ _ _ _ eq_refl E).
    - destruct (1 <=? h) eqn:E1; [|discriminate]. apply Nat.leb_le in E1.
      apply heq_some in H. destruct H as (q & H1 & H2).
      apply heq_some in H2. destruct H2 as (q2 & H2 & H3). inversion H3; subst.
      destruct st as [|v r]; [discriminate|]. cbn in E, H1, H2, E1. rewrite Nat.sub_0_r in *. cbn.
      destruct (takes k v).
      + apply (CC _ IH2 _ _ _ H2 _ _ _ _ _ eq_refl E).
      + apply (CC _ IH1 _ _ _ H1 _ _ _ _ _ eq_refl E).
    - apply heq_some in H. destruct H as (q & H1 & H2).
      apply heq_some in H2. destruct H2 as (q2 & H2 & H3). inversion H3; subst.
      apply (hts_loop _ _ k _ (CC _ IHt _ _ _ H1) (CC _ IHb _ _ _ H2) n st s st' s' eq_refl E). }
  induction c as [|i c IH]; intros h h' p H; simpl in H.
  - inversion H; subst. intros n st s st' s' Hl E. inversion E; subst; auto.
  - apply hseq_some in H. destruct H as (x & y & z & E1 & E2 & ->).
    intros n st s st' s' Hl E. simpl in E.
    apply (hts_seq _ _ _ _ _ (I _ _ _ _ E1) (IH _ _ _ E2) n st s st' s' Hl E).
Qed.

Lemma enc_jump_len b off j : enc_jump b off j -> length j = 3.
Proof. intros [-> | (x & y & -> & _)]; reflexivity. Qed.

Lemma sim_code A i c bb L P :
  enc fields C lits A i c bb L P ->
  forall pre post h h' p, bs = pre ++ bb ++ post -> length pre = i ->
  typ c h = Some (h', p) -> p <= cap ->
  sim (exec μ c) i (i + length bb) h.
Proof.
  intros H.
  remember C as C0 eqn:HC0. remember lits as l0 eqn:Hl0.
  induction H as [C0 l0 A i
    |C0 l0 A i o b bo c bs' L P Ho Hc IHc
    |C0 l0 A i k b bb Lb Pb j c bs' L P Hb IHb Hj Hc IHc
    |C0 l0 A i k b1 b2 bb1 bb2 L1 P1 L2 P2 j1 j2 c bs' L P H1 IH1 Hj1 H2 IH2 Hj2 Hne Hc IHc
    |C0 l0 A i k t b bt bb Lt Pt Lb Pb j1 j2 c bs' L P Ht IHt Hj1 Hb IHb Hj2 Hc IHc]; subst C0 l0;
    intros pre post h h' p Hbs Hi Hty Hp; cbn [typ] in Hty.
  - rewrite Nat.add_0_r. eapply sim_ext; [|apply sim_nil]. auto.
  - apply hseq_some in Hty. destruct Hty as (h1 & p1 & p2 & T1 & T2 & ->).
    rewrite typ_item_eq in T1. destruct (op_ht o h) as [h1'|] eqn:Eo; [|discriminate].
    inversion T1; subst h1' p1. clear T1.
    rewrite app_length, Nat.add_assoc.
    eapply sim_ext; [intros; reflexivity|].
    eapply (sim_seq (exec_item μ (IOp o)) (exec μ c) _ (i + length bo) _ h h1).
    + apply sim_one. intros n st s Hl. rewrite exec_item_eq. rewrite <- Hi.
      apply (step_op A o b bo pre (bs' ++ post) st s h1 Ho); [|rewrite Hl; exact Eo|lia|lia].
      rewrite Hbs, <- app_assoc. reflexivity.
    + intros n st s st' s' Hl E. rewrite exec_item_eq in E. eapply (op_ht_exec _ _ _ Eo n); eauto.
    + eapply IHc with (pre := pre ++ bo); eauto.
      * rewrite Hbs, <- !app_assoc. reflexivity.
      * rewrite app_length. lia.
      * lia.
  - apply hseq_some in Hty. destruct Hty as (h1 & p1 & p2 & T1 & T2 & ->).
    pose proof (enc_jump_len _ _ _ Hj) as Lj.
    assert (T1' := T1).
    rewrite typ_item_eq in T1. destruct (1 <=? h) eqn:E1; [|discriminate]. apply Nat.leb_le in E1.
    apply heq_some in T1. destruct T1 as (q & Tb & E). inversion E; subst h1 p1. clear E.
    rewrite !app_length, Lj. replace (i + (3 + (length bb + length bs'))) with (i + 3 + length bb + length bs') by lia.
    eapply sim_ext; [intros; reflexivity|].
    eapply (sim_seq (exec_item μ (IThen k b)) (exec μ c) _ (i + 3 + length bb) _ h h).
    + eapply (sim_then k (exec μ b) _ i (i + 3) (i + 3 + length bb)); auto; try lia.
      * intros st s. replace (i + 3 + length bb - i) with (3 + length bb) by lia. rewrite <- Hi.
        eapply step_jump; eauto. rewrite Hbs, <- !app_assoc. reflexivity. apply jump_form_jump.
      * eapply IHb with (pre := pre ++ j); eauto.
        { rewrite Hbs, <- !app_assoc. reflexivity. }
        { rewrite app_length. lia. }
        { lia. }
    + intros n st s st' s' Hl E.
      refine (typ_hts [IThen k b] h h (Nat.max (Nat.max h q) h) _ n st s st' s' Hl _).
      { cbn [typ]. rewrite T1'. reflexivity. }
      { cbn [exec]. rewrite E. reflexivity. }
    + eapply IHc with (pre := pre ++ j ++ bb); eauto.
      * rewrite Hbs, <- !app_assoc. reflexivity.
      * rewrite !app_length. lia.
      * lia.
  - apply hseq_some in Hty. destruct Hty as (h1 & p1 & p2 & T1 & T2 & ->).
    pose proof (enc_jump_len _ _ _ Hj1) as Lj1. pose proof (enc_jump_len _ _ _ Hj2) as Lj2.
    assert (T1' := T1).
    rewrite typ_item_eq in T1. destruct (1 <=? h) eqn:E1; [|discriminate]. apply Nat.leb_le in E1.
    apply heq_some in T1. destruct T1 as (q & Tb & E).
    apply heq_some in E. destruct E as (q2 & Tb2 & E). inversion E; subst h1 p1. clear E.
    rewrite !app_length, Lj1, Lj2.
    replace (i + (3 + (length bb1 + (3 + (length bb2 + length bs'))))) with (i + 3 + length bb1 + 3 + length bb2 + length bs') by lia.
    eapply sim_ext; [intros; reflexivity|].
    eapply (sim_seq (exec_item μ (IElse k b1 b2)) (exec μ c) _ (i + 3 + length bb1 + 3 + length bb2) _ h h).
    + eapply (sim_else k (exec μ b1) (exec μ b2) _ i (i + 3) (i + 3 + length bb1 + 3) (i + 3 + length bb1)); auto; try lia.
      * intros st s. replace (i + 3 + length bb1 + 3 - i) with (3 + length bb1 + 3) by lia. rewrite <- Hi.
        eapply step_jump; eauto. rewrite Hbs, <- !app_assoc. reflexivity. apply jump_form_jump.
      * eapply IH1 with (pre := pre ++ j1); eauto.
        { rewrite Hbs, <- !app_assoc. reflexivity. }
        { rewrite app_length. lia. }
        { lia. }
      * intros st s. replace (i + 3 + length bb1 + 3 + length bb2 - (i + 3 + length bb1)) with (3 + length bb2) by lia.
        replace (i + 3 + length bb1) with (length (pre ++ j1 ++ bb1)) by (rewrite !app_length; lia).
        eapply step_jump; eauto. rewrite Hbs, <- !app_assoc. reflexivity.
      * eapply IH2 with (pre := pre ++ j1 ++ bb1 ++ j2); eauto.
        { rewrite Hbs, <- !app_assoc. reflexivity. }
        { rewrite !app_length. lia. }
        { lia. }
    + intros n st s st' s' Hl E.
      refine (typ_hts [IElse k b1 b2] h h (Nat.max (Nat.max h (Nat.max q q2)) h) _ n st s st' s' Hl _).
      { cbn [typ]. rewrite T1'. reflexivity. }
      { cbn [exec]. rewrite E. reflexivity. }
    + eapply IHc with (pre := pre ++ j1 ++ bb1 ++ j2 ++ bb2); eauto.
      * rewrite Hbs, <- !app_assoc. reflexivity.
      * rewrite !app_length. lia.
      * lia.
  - apply hseq_some in Hty. destruct Hty as (h1 & p1 & p2 & T1 & T2 & ->).
    pose proof (enc_jump_len _ _ _ Hj1) as Lj1. pose proof (enc_jump_len _ _ _ Hj2) as Lj2.
    assert (T1' := T1).
    rewrite typ_item_eq in T1.
    apply heq_some in T1. destruct T1 as (q & Tb & E).
    apply heq_some in E. destruct E as (q2 & Tb2 & E). inversion E; subst h1 p1. clear E.
    rewrite !app_length, Lj1, Lj2.
    replace (i + (length bt + (3 + (length bb + (3 + length bs'))))) with (i + length bt + 3 + length bb + 3 + length bs') by lia.
    eapply sim_ext; [intros; reflexivity|].
    eapply (sim_seq (exec_item μ (ILoop k t b)) (exec μ c) _ (i + length bt + 3 + length bb + 3) _ h h).
    + apply (sim_ext (fun n st s => exec_loop n (exec μ t) (exec μ b) k st s));
        [intros; rewrite exec_item_eq; reflexivity|].
      eapply (sim_loop k (exec μ t) (exec μ b) i (i + length bt) (i + length bt + 3) (i + length bt + 3 + length bb)); auto; try lia.
      * eapply IHt with (pre := pre); eauto.
        { rewrite Hbs, <- !app_assoc. reflexivity. }
        { lia. }
      * eapply typ_hts; eauto.
      * intros st s. replace (i + length bt + 3 + length bb + 3 - (i + length bt)) with (3 + length bb + 3) by lia.
        replace (i + length bt) with (length (pre ++ bt)) by (rewrite !app_length; lia).
        eapply step_jump; eauto. rewrite Hbs, <- !app_assoc. reflexivity. apply jump_form_jump.
      * eapply IHb with (pre := pre ++ bt ++ j1); eauto.
        { rewrite Hbs, <- !app_assoc. reflexivity. }
        { rewrite !app_length. lia. }
        { lia. }
      * eapply typ_hts; eauto.
      * intros st s. replace (i + length bt + 3 + length bb - i) with (length bt + 3 + length bb) by lia.
        replace (i + length bt + 3 + length bb) with (length (pre ++ bt ++ j1 ++ bb)) by (rewrite !app_length; lia).
        eapply step_jump; eauto. rewrite Hbs, <- !app_assoc. reflexivity.
    + intros n st s st' s' Hl E.
      refine (typ_hts [ILoop k t b] h h (Nat.max (Nat.max q q2) h) _ n st s st' s' Hl _).
      { cbn [typ]. rewrite T1'. reflexivity. }
      { cbn [exec]. rewrite E. reflexivity. }
    + eapply IHc with (pre := pre ++ bt ++ j1 ++ bb ++ j2); eauto.
      * rewrite Hbs, <- !app_assoc. reflexivity.
      * rewrite !app_length. lia.
      * lia.
Qed.
End Sim.
