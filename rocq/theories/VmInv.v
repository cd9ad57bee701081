(** Activations, marks and blocks: what holds of every state of a run. *)
From Coq Require Import ZArith Bool String Ascii List Lia.
From Verif Require Import Base LexModel ParseModel BcModel BcInterp BcSpec BcTab BcCode BcEval VmModel VmSpec VmRel.
Import ListNotations.
Open Scope nat_scope.
Open Scope list_scope.

(** * Lists *)
Lemma set_at_length {A} (l : list A) i x : length (set_at l i x) = length l.
Proof. revert i. induction l; intros [|i]; cbn; auto. Qed.
Lemma nth_set_at {A} (l : list A) i x j :
  nth_error (set_at l i x) j = if j =? i then (match nth_error l j with Some _ => Some x | None => None end) else nth_error l j.
Proof.
  revert i j. induction l as [|a l IH]; intros [|i] [|j]; cbn; auto. destruct (j =? i); reflexivity.
Qed.
Lemma map_set_at {A B} (f : A -> B) l i x : map f (set_at l i x) = set_at (map f l) i (f x).
Proof. revert i. induction l; intros [|i]; cbn; auto. rewrite IHl. auto. Qed.

(** * Erasing marks *)
Definition er (f : frame) : frame := Frame (f_meth f) (f_args f) (f_locs f) (f_outer f) true.
Definition er_vm (s : vm) : vm := Vm (v_store s) (map er (v_frames s)).
Lemma up_er fs k i : up (map er fs) k i = up fs k i.
Proof.
  revert i. induction k as [|k IH]; intros i; cbn [up]; auto. rewrite nth_error_map.
  destruct (nth_error fs i) as [f|]; cbn; auto. destruct (f_outer f); auto.
Qed.
Lemma home_er fs n i : home (map er fs) n i = home fs n i.
Proof.
  revert i. induction n as [|n IH]; intros i; cbn [home]; auto. rewrite nth_error_map.
  destruct (nth_error fs i) as [f|]; cbn; auto. destruct (f_outer f); auto.
Qed.
Lemma receiver_er fs i : receiver (map er fs) i = receiver fs i.
Proof. unfold receiver. rewrite nth_error_map. destruct (nth_error fs i); auto. Qed.
Lemma self_er st fs n v : self_of st (map er fs) n v = self_of st fs n v.
Proof.
  revert v. induction n as [|n IH]; intros v; cbn [self_of]; destruct (the_block st v) as [[[? ?] o]|]; auto.
  rewrite receiver_er. destruct (receiver fs o); auto.
Qed.
Lemma dyn_er s i : self_dynamically (er_vm s) i = self_dynamically s i.
Proof.
  unfold self_dynamically. cbn. rewrite receiver_er, map_length. destruct (receiver (v_frames s) i); auto. apply self_er.
Qed.

(** * The loop of get_self_dynamically *)
Section Self.
Variables (st : store) (fs : list frame).
Notation self_of := (self_of st fs).
Lemma self_more n v w : self_of n v = Some w -> forall m, n <= m -> self_of m v = Some w.
Proof.
  revert v. induction n as [|n IH]; intros v H m Hm.
  - destruct m; cbn [VmModel.self_of] in *; destruct (the_block st v) as [[[? ?] o]|]; auto; discriminate.
  - destruct m; [lia|]. cbn [VmModel.self_of] in *. destruct (the_block st v) as [[[? ?] o]|]; auto.
    destruct (receiver fs o); [|discriminate]. apply IH; auto. lia.
Qed.
(** [o] is one of the activations on the way, [k] steps before the end. *)
Inductive way : nat -> value -> list nat -> value -> Prop :=
| way_end v : the_block st v = None -> way 0 v [] v
| way_step n v m l o w os x : the_block st v = Some (m, l, o) -> receiver fs o = Some w -> way n w os x -> way (S n) v (o :: os) x.
Lemma self_way n v w : self_of n v = Some w -> exists k os, k <= n /\ way k v os w.
Proof.
  revert v. induction n as [|n IH]; intros v H; cbn [VmModel.self_of] in H; destruct (the_block st v) as [[[? ?] o]|] eqn:E; try discriminate.
  - inversion H; subst. exists 0, []. split; [lia|constructor; auto].
  - destruct (receiver fs o) eqn:Er; [|discriminate]. destruct (IH _ H) as (k & os & Hk & W).
    exists (S k), (o :: os). split; [lia|econstructor; eauto].
  - inversion H; subst. exists 0, []. split; [lia|constructor; auto].
Qed.
Lemma way_self k v os w : way k v os w -> self_of k v = Some w.
Proof.
  induction 1 as [v E|n v m l o w os x Eb Er W IH]; cbn [VmModel.self_of]; [rewrite E|rewrite Eb, Er]; auto.
Qed.
Lemma way_fun k v os w : way k v os w -> forall k' os' w', way k' v os' w' -> k = k'.
Proof.
  induction 1 as [v E|n v m l o w os x Eb Er W IH]; intros k' os' w' H'; inversion H'; subst; try congruence.
  rewrite Eb in H. inversion H; subst. rewrite Er in H0. inversion H0; subst. f_equal. eauto.
Qed.
Lemma way_in k v os w : way k v os w -> forall o, In o os -> exists u k' os', receiver fs o = Some u /\ way k' u os' w /\ k' < k.
Proof.
  induction 1 as [v E|n v m l o w os x Eb Er W IH]; intros o' Hi; [destruct Hi|]. destruct Hi as [<- | Hi].
  - exists w, n, os. auto.
  - destruct (IH _ Hi) as (u & k' & os' & A & B & C). exists u, k', os'. auto.
Qed.
Lemma way_nodup k v os w : way k v os w -> NoDup os.
Proof.
  induction 1 as [v E|n v m l o w os x Eb Er W IH]; constructor; auto. intros Hi.
  destruct (way_in _ _ _ _ W _ Hi) as (u & k' & os' & A & B & C). rewrite Er in A. inversion A; subst.
  pose proof (way_fun _ _ _ _ W _ _ _ B). lia.
Qed.
Lemma way_length k v os w : way k v os w -> k = length os /\ incl os (seq 0 (length fs)).
Proof.
  induction 1 as [v E|n v m l o w os x Eb Er W [IH1 IH2]]; split; auto.
  - intros ? [].
  - cbn. lia.
  - intros y [<- | Hy]; auto. apply in_seq. unfold receiver in Er. destruct (nth_error fs o) eqn:E; [|discriminate].
    assert (o < length fs) by (apply nth_error_Some; congruence). lia.
Qed.
(** As many steps as there are activations are enough. *)
Lemma self_enough n v w : self_of n v = Some w -> forall m, length fs <= m -> self_of m v = Some w.
Proof.
  intros H m Hm. destruct (self_way _ _ _ H) as (k & os & Hk & W).
  destruct (way_length _ _ _ _ W) as [L I]. pose proof (NoDup_incl_length (way_nodup _ _ _ _ W) I) as Hl.
  rewrite seq_length in Hl. eapply self_more; [apply (way_self _ _ _ _ W)|]. lia.
Qed.
Lemma self_step v m l o w : the_block st v = Some (m, l, o) -> receiver fs o = Some w ->
  self_of (length fs) v = self_of (length fs) w.
Proof.
  intros Eb Er.
  assert (E : forall x, self_of (length fs) w = Some x -> self_of (length fs) v = Some x).
  { intros x H. apply (self_enough (S (length fs))); auto. cbn [VmModel.self_of]. rewrite Eb, Er. auto. }
  destruct (self_of (length fs) w) as [x|] eqn:E1; auto.
  destruct (self_of (length fs) v) as [x|] eqn:E2; auto. exfalso.
  destruct (length fs) as [|n] eqn:El.
  { cbn [VmModel.self_of] in E2. rewrite Eb in E2. discriminate. }
  cbn [VmModel.self_of] in E2. rewrite Eb, Er in E2. rewrite (self_more _ _ _ E2 (S n)) in E1 by lia. discriminate.
Qed.
End Self.

(** * The shape of the activations *)
Definition keeps (fs fs' : list frame) : Prop := forall i fr, nth_error fs i = Some fr ->
  exists fr', nth_error fs' i = Some fr' /\ f_meth fr' = f_meth fr /\ f_outer fr' = f_outer fr.
Lemma keeps_up fs fs' : keeps fs fs' -> forall d i h fh, up fs d i = Some h -> nth_error fs h = Some fh -> up fs' d i = Some h.
Proof.
  intros K d. induction d as [|d IH]; intros i h fh H Hh; cbn [up] in *; auto.
  destruct (nth_error fs i) as [fr|] eqn:E; [|discriminate]. destruct (K _ _ E) as (fr' & -> & _ & ->).
  destruct (f_outer fr) as [o|]; [|discriminate]. eauto.
Qed.
(** Activation [i] is one of method [m], [d] blocks deep in it. *)
Definition cur (m d i : nat) (fs : list frame) : Prop := exists fr h fh,
  nth_error fs i = Some fr /\ f_meth fr = m /\
  up fs d i = Some h /\ nth_error fs h = Some fh /\ f_outer fh = None /\ f_meth fh = m.
Lemma keeps_cur fs fs' m d i : keeps fs fs' -> cur m d i fs -> cur m d i fs'.
Proof.
  intros K (fr & h & fh & A & B & C & D & E & F).
  destruct (K _ _ A) as (fr' & A' & B' & _). destruct (K _ _ D) as (fh' & D' & F' & E').
  exists fr', h, fh'. repeat split; try congruence. eapply keeps_up; eauto.
Qed.

Section Inv.
Variable M : nat -> option msrc.
Variable catch : nat -> bool.
Definition ids (stk : list (nat * nat * nat)) : list nat := map (fun x => fst (fst x)) stk.
Definition frame_ok (stk : list nat) (s : vm) (i : nat) (fr : frame) : Prop :=
  match f_outer fr with
  | None => catch (f_meth fr) = true -> (f_live fr = true <-> In i stk)
  | Some o => o < i /\
      (exists a l, nth_error (f_args fr) 0 = Some (VObj a) /\
                   nth_error (s_objs (v_store s)) a = Some (OBlk (f_meth fr) l o))
  end.
Definition blk_ok (m l o : nat) (fs : list frame) : Prop :=
  exists ms b rho, M m = Some ms /\ block_of ms l = Some (b, rho) /\ cur m (depth rho) o fs.
Record inv (stk : list (nat * nat * nat)) (s : vm) : Prop := {
  i_frame : forall i fr, nth_error (v_frames s) i = Some fr -> frame_ok (ids stk) s i fr;
  i_obj : forall a m l o, nth_error (s_objs (v_store s)) a = Some (OBlk m l o) -> blk_ok m l o (v_frames s);
  i_stk : forall i m d, In (i, m, d) stk -> cur m d i (v_frames s) }.

Lemma keeps_blk fs fs' m l o : keeps fs fs' -> blk_ok m l o fs -> blk_ok m l o fs'.
Proof. intros K (ms & b & rho & A & B & C). exists ms, b, rho. eauto using keeps_cur. Qed.
Lemma keeps_refl fs : keeps fs fs.
Proof. intros i fr H. eauto. Qed.

Lemma inv_store stk s st : inv stk s -> same_blocks (v_store s) st -> inv stk (set_store st s).
Proof.
  intros [F O K] H. constructor; cbn; auto.
  - intros i fr E. specialize (F i fr E). unfold frame_ok in *. destruct (f_outer fr); auto.
    destruct F as (A & a & l & B & C). split; auto. exists a, l. split; auto. apply H. auto.
  - intros a m l o E. apply (O a). apply H. auto.
Qed.
Lemma inv_set stk s i fr fr' : inv stk s -> nth_error (v_frames s) i = Some fr ->
  f_meth fr' = f_meth fr -> f_outer fr' = f_outer fr -> f_live fr' = f_live fr ->
  (f_outer fr <> None -> nth_error (f_args fr') 0 = nth_error (f_args fr) 0) ->
  inv stk (set_frame i fr' s).
Proof.
  intros [F O K] Hi Em Eo El Ea.
  assert (Kp : keeps (v_frames s) (set_at (v_frames s) i fr')).
  { intros j fj Hj. rewrite nth_set_at. destruct (Nat.eqb_spec j i) as [-> |]; [|eauto].
    rewrite Hj. rewrite Hi in Hj. inversion Hj; subst. eauto. }
  constructor; cbn.
  - intros j fj. rewrite nth_set_at. destruct (Nat.eqb_spec j i) as [-> |]; [|apply F].
    rewrite Hi. intros H. inversion H; subst fj. specialize (F i fr Hi). unfold frame_ok in *.
    rewrite Eo, Em, El. destruct (f_outer fr); auto. rewrite Ea by discriminate. auto.
  - intros a m l o E. eapply keeps_blk; eauto.
  - intros j m d E. eapply keeps_cur; eauto.
Qed.
Lemma inv_new stk s m l o : inv stk s -> blk_ok m l o (v_frames s) ->
  inv stk (set_store (Store (s_objs (v_store s) ++ [OBlk m l o]) (s_globs (v_store s)) (s_out (v_store s))) s).
Proof.
  intros [F O K] H. constructor; cbn; auto.
  - intros i fr E. specialize (F i fr E). unfold frame_ok in *. destruct (f_outer fr); auto.
    destruct F as (A & a & l' & B & C). split; auto. exists a, l'. split; auto. cbn.
    rewrite nth_error_app1; auto. apply nth_error_Some. congruence.
  - intros a m' l' o' E. destruct (Nat.lt_ge_cases a (length (s_objs (v_store s)))).
    + rewrite nth_error_app1 in E by auto. eauto.
    + rewrite nth_error_app2 in E by auto. destruct (a - _) as [|[|]]; cbn in E; [inversion E; subst; auto|discriminate|discriminate].
Qed.
Lemma keeps_app fs x : keeps fs (fs ++ x).
Proof. intros i fr H. exists fr. split; auto. rewrite nth_error_app1; auto. apply nth_error_Some. congruence. Qed.
Lemma cur_lt m d i fs : cur m d i fs -> i < length fs.
Proof. intros (fr & _ & _ & A & _). apply nth_error_Some. congruence. Qed.
Lemma inv_fresh stk s : inv stk s -> ~ In (length (v_frames s)) (ids stk).
Proof.
  intros I H. unfold ids in H. apply in_map_iff in H. destruct H as ([[i m] d] & E & H). cbn in E. subst i.
  apply (i_stk _ _ I) in H. apply cur_lt in H. lia.
Qed.
Lemma inv_push stk s mid args outer d : inv stk s ->
  match outer with
  | None => d = 0
  | Some o => (exists d' a l r, d = S d' /\ cur mid d' o (v_frames s) /\ args = VObj a :: r /\
                 nth_error (s_objs (v_store s)) a = Some (OBlk mid l o))
  end ->
  inv ((length (v_frames s), mid, d) :: stk) (push_frame mid args outer s).
Proof.
  intros I H. pose proof (inv_fresh _ _ I) as Hf. destruct I as [F O K].
  assert (Hin : forall i, i < length (v_frames s) -> (In i (length (v_frames s) :: ids stk) <-> In i (ids stk))).
  { intros i Hi. split; [intros [<- | ?]; [lia|auto]|right; auto]. }
  constructor; cbn.
  - intros i fr E. destruct (Nat.lt_ge_cases i (length (v_frames s))) as [Hi|Hi].
    + rewrite nth_error_app1 in E by auto. specialize (F i fr E). unfold frame_ok in *. cbn in *.
      destruct (f_outer fr); auto. intros Hc. rewrite (F Hc). split; intros Hx; [right; auto|]. destruct Hx; [lia|auto].
    + assert (i = length (v_frames s)).
      { assert (i < length (v_frames s ++ [Frame mid args [] outer true])) by (apply nth_error_Some; congruence).
        rewrite app_length in *. cbn in *. lia. }
      subst i. rewrite nth_error_app2, Nat.sub_diag in E by lia. cbn in E. inversion E; subst fr. unfold frame_ok. cbn.
      destruct outer as [o|].
      * destruct H as (d' & a & l & r & -> & C & -> & E'). split; [eapply cur_lt; eauto|]. exists a, l. auto.
      * intros _. split; auto.
  - intros a m l o E. eapply keeps_blk; [apply keeps_app|]. eauto.
  - intros i m d' [E|E].
    + inversion E; subst i m d'. destruct outer as [o|].
      * destruct H as (d' & a & l & r & -> & C & _ & _). apply (keeps_cur _ _ _ _ _ (keeps_app _ [Frame mid args [] (Some o) true])) in C.
        destruct C as (fr & h & fh & A1 & A2 & A3 & A4 & A5 & A6).
        exists (Frame mid args [] (Some o) true), h, fh. repeat split; auto.
        -- rewrite nth_error_app2, Nat.sub_diag by lia. reflexivity.
        -- cbn [up]. rewrite nth_error_app2, Nat.sub_diag by lia. cbn. exact A3.
      * subst d. exists (Frame mid args [] None true), (length (v_frames s)), (Frame mid args [] None true).
        assert (E' : nth_error (v_frames s ++ [Frame mid args [] None true]) (length (v_frames s)) = Some (Frame mid args [] None true))
          by (rewrite nth_error_app2, Nat.sub_diag by lia; reflexivity).
        repeat split; auto.
    + eapply keeps_cur; [apply keeps_app|]. eauto.
Qed.
Lemma keeps_mark s i : keeps (v_frames s) (v_frames (mark i s)).
Proof.
  unfold mark. destruct (nth_error (v_frames s) i) as [f|] eqn:E; [|apply keeps_refl].
  intros j fj Hj. cbn. rewrite nth_set_at. destruct (Nat.eqb_spec j i) as [-> |]; [|eauto].
  rewrite Hj. rewrite E in Hj. inversion Hj; subst. eauto.
Qed.
Lemma store_mark i s : v_store (mark i s) = v_store s.
Proof. unfold mark. destruct (nth_error (v_frames s) i); auto. Qed.
(** Leaving an activation: a method that catches returns is marked, for others the mark does
    not matter. *)
Lemma inv_mark stk s mid d fid : inv ((fid, mid, d) :: stk) s -> ~ In fid (ids stk) -> d = 0 ->
  inv stk (mark fid s).
Proof.
  intros [F O K] Hn Hd. pose proof (keeps_mark s fid) as Kp.
  assert (C : cur mid d fid (v_frames s)) by (apply K; left; auto).
  constructor.
  - intros i fr E. unfold mark in E. destruct (nth_error (v_frames s) fid) as [f|] eqn:Ef.
    2:{ destruct C as (? & _ & _ & A & _). congruence. }
    cbn in E. rewrite nth_set_at in E. destruct (Nat.eqb_spec i fid) as [-> | Hne].
    + rewrite Ef in E. inversion E; subst fr. specialize (F fid f Ef). unfold frame_ok in *. cbn.
      destruct (f_outer f) as [o|] eqn:Eo.
      * rewrite store_mark. auto.
      * intros _. split; [discriminate|tauto].
    + specialize (F i fr E). unfold frame_ok in *. rewrite store_mark. destruct (f_outer fr); auto.
      intros Hc. rewrite (F Hc). cbn. split; intros H; [destruct H; [congruence|auto]|right; auto].
  - intros a m l o E. rewrite store_mark in E. eapply keeps_blk; eauto.
  - intros i m d' E. eapply keeps_cur; eauto. apply K. right; auto.
Qed.
Lemma inv_leave stk s mid d fid : inv ((fid, mid, d) :: stk) s -> ~ In fid (ids stk) -> (d = 0 -> catch mid = false) ->
  inv stk s.
Proof.
  intros [F O K] Hn Hd.
  assert (C : cur mid d fid (v_frames s)) by (apply K; left; auto).
  constructor; auto.
  - intros i fr E. specialize (F i fr E). unfold frame_ok in *. destruct (f_outer fr) as [o|] eqn:Eo; auto. intros Hc.
    rewrite (F Hc). cbn. split; intros H; [|right; auto]. destruct H as [<- |]; auto. exfalso.
    destruct C as (fr' & h & fh & A1 & A2 & A3 & A4 & A5 & A6). rewrite E in A1. inversion A1; subst fr'.
    destruct d as [|d]; [rewrite A2, Hd in Hc by auto; discriminate|].
    cbn [up] in A3. rewrite E, Eo in A3. discriminate.
  - intros i m d' E. apply K. right; auto.
Qed.

(** * Home *)
Lemma up_lt s stk : inv stk s -> forall d i h, up (v_frames s) d i = Some h -> h + d <= i.
Proof.
  intros [F _ _] d. induction d as [|d IH]; intros i h H; cbn [up] in H; [inversion H; lia|].
  destruct (nth_error (v_frames s) i) as [fr|] eqn:E; [|discriminate]. specialize (F i fr E). unfold frame_ok in F.
  destruct (f_outer fr) as [o|]; [|discriminate]. apply IH in H. lia.
Qed.
Lemma up_home fs d : forall n i h fh, up fs d i = Some h -> nth_error fs h = Some fh -> f_outer fh = None -> d <= n -> home fs n i = h.
Proof.
  induction d as [|d IH]; intros n i h fh H Hh Ho Hn; cbn [up] in H.
  - inversion H; subst. destruct n; cbn [home]; auto. rewrite Hh, Ho. auto.
  - destruct n; [lia|]. cbn [home]. destruct (nth_error fs i) as [fr|]; [|discriminate].
    destruct (f_outer fr); [|discriminate]. eapply IH; eauto. lia.
Qed.
(** What get_self_dynamically finds from a block is what it finds from its home method. *)
Lemma dyn_home stk s : inv stk s -> forall d i h, up (v_frames s) d i = Some h ->
  self_dynamically s i = match receiver (v_frames s) h with
                         | Some r => self_of (v_store s) (v_frames s) (length (v_frames s)) r
                         | None => None
                         end /\
  (0 < d -> exists b, receiver (v_frames s) i = Some b).
Proof.
  intros I d. induction d as [|d IH]; intros i h H; cbn [up] in H.
  - inversion H; subst. unfold self_dynamically. split; auto. lia.
  - destruct (nth_error (v_frames s) i) as [fr|] eqn:E; [|discriminate].
    pose proof (i_frame _ _ I i fr E) as F. unfold frame_ok in F. destruct (f_outer fr) as [o|]; [|discriminate].
    destruct F as (_ & a & l & F1 & F2). destruct (IH _ _ H) as [E1 E2].
    assert (Ri : receiver (v_frames s) i = Some (VObj a)) by (unfold receiver; rewrite E; auto).
    assert (Bl : the_block (v_store s) (VObj a) = Some (f_meth fr, l, o)) by (cbn [the_block]; rewrite F2; reflexivity).
    split; [|eauto]. rewrite <- E1. unfold self_dynamically. rewrite Ri.
    destruct (receiver (v_frames s) o) as [w|] eqn:Eo; [eapply self_step; eauto|].
    destruct (length (v_frames s)); cbn [VmModel.self_of]; rewrite Bl; auto. rewrite Eo. auto.
Qed.
End Inv.
