(** Marks and caught exceptions implement returns to the home activation. *)
From Coq Require Import ZArith Bool String Ascii List Lia.
From Verif Require Import Base LexModel ParseModel BcModel BcInterp BcSpec BcTab BcCode BcEval BcNest VmModel VmSpec VmRel VmInv.
Import ListNotations.
Open Scope nat_scope.
Open Scope list_scope.

(** * The block literals of a method *)
Lemma in_opened b rho : is_block b = true -> In (b, rho) (opened (b, rho)).
Proof. destruct b; cbn; try discriminate. auto. Qed.
Lemma created_block : forall e,
  (forall rho b rho', In (b, rho') (created e rho) -> is_block b = true /\ depth rho' = depth rho /\ (blocky rho -> blocky rho')) /\
  (forall rho b rho', In (b, rho') (created_inl e rho) -> is_block b = true /\ depth rho' = depth rho /\ (blocky rho -> blocky rho')).
Proof.
  assert (L : forall l, Forall (fun e => (forall rho b rho', In (b, rho') (created e rho) -> is_block b = true /\ depth rho' = depth rho /\ (blocky rho -> blocky rho')) /\
     (forall rho b rho', In (b, rho') (created_inl e rho) -> is_block b = true /\ depth rho' = depth rho /\ (blocky rho -> blocky rho'))) l ->
     (forall rho b rho', In (b, rho') (flat_map (fun e => created e rho) l) -> is_block b = true /\ depth rho' = depth rho /\ (blocky rho -> blocky rho')) /\
     (forall rho b rho', In (b, rho') (flat_map (fun e => created_inl e rho) l) -> is_block b = true /\ depth rho' = depth rho /\ (blocky rho -> blocky rho'))).
  { intros l H. split; intros rho b rho' Hi; apply in_flat_map in Hi; destruct Hi as (x & Hx & Hi);
      rewrite Forall_forall in H; destruct (H x Hx) as [H1 H2]; eauto. }
  induction e as [n|l|sup r sel args IHr IHa|e IH|e IH|vs e IH|label ps ls ss ret per IHs IHr] using src_ind';
    (split; [intros rho b rho' Hi|intros rho b rho' Hi; try solve [destruct Hi]]); try solve [destruct Hi];
    try (apply (proj1 IH); exact Hi).
  - rewrite created_send in Hi. destruct (L args IHa) as [L1 L2]. destruct IHr as [R1 R2].
    destruct (special_form sup r sel args) as [[]|]; apply in_app_or in Hi; destruct Hi; eauto.
  - destruct Hi as [Hi|[]]. inversion Hi; subst. auto.
  - cbn [created_inl] in Hi. unfold created_body in Hi. apply in_app_or in Hi. destruct (L ss IHs) as [L1 _].
    assert (G : is_block b = true /\ depth rho' = depth (add_layer ls rho) /\ (blocky (add_layer ls rho) -> blocky rho')).
    { destruct Hi as [Hi|Hi]; [eauto|]. destruct ret; [|destruct Hi]. apply IHr in Hi. auto. }
    rewrite depth_add_layer in G. destruct G as (G1 & G2 & G3). split; auto. split; auto.
    intros Hb. apply G3. apply blocky_add_layer; auto.
Qed.
Lemma created_body_block ss ret rho b rho' : In (b, rho') (created_body ss ret rho) ->
  is_block b = true /\ depth rho' = depth rho /\ (blocky rho -> blocky rho').
Proof.
  unfold created_body. intros H. apply in_app_or in H. destruct H as [H|H].
  - apply in_flat_map in H. destruct H as (x & _ & H). exact (proj1 (created_block x) _ _ _ H).
  - destruct ret as [e|]; [|destruct H]. exact (proj1 (created_block e) _ _ _ H).
Qed.
(** With a block literal its own block literals are among those of the method. *)
Definition within (p : src * env) (l : list (src * env)) : Prop :=
  match fst p with
  | SBlk _ ps ls ss ret _ => incl (created_body ss ret (add_level ps ls (snd p))) l
  | _ => True
  end.
Lemma incl_opened l : (forall b rho, In (b, rho) l -> is_block b = true) -> incl l (flat_map opened l).
Proof. intros H [b rho] Hp. apply in_flat_map. exists (b, rho). split; auto. apply in_opened. eauto. Qed.
Lemma created_incl ss ret rho : incl (created_body ss ret rho) (body_blocks ss ret rho).
Proof. rewrite body_open. apply incl_opened. intros b r Hb. eapply created_body_block; eauto. Qed.
Lemma within_incl p l l' : incl l l' -> within p l -> within p l'.
Proof. unfold within. destruct (fst p); auto. intros H H' x Hx. auto. Qed.
Lemma blocks_within : forall e,
  (forall rho p, In p (blocks e rho) -> within p (blocks e rho)) /\
  match e with
  | SBlk _ _ _ ss ret _ => forall rho p, In p (body_blocks ss ret rho) -> within p (body_blocks ss ret rho)
  | _ => True
  end.
Proof.
  assert (FM : forall (f : src -> list (src * env)) l, Forall (fun a => forall p, In p (f a) -> within p (f a)) l ->
    forall p, In p (flat_map f l) -> within p (flat_map f l)).
  { intros f l H p Hp. apply in_flat_map in Hp. destruct Hp as (a & Ha & Hp). rewrite Forall_forall in H.
    eapply within_incl; [|apply (H a Ha p Hp)]. intros x Hx. apply in_flat_map. eauto. }
  assert (AP : forall a b : list (src * env), (forall p, In p a -> within p a) -> (forall p, In p b -> within p b) ->
    forall p, In p (a ++ b) -> within p (a ++ b)).
  { intros a b Ha Hb p Hp. apply in_app_or in Hp. destruct Hp as [Hp|Hp]; eapply within_incl.
    - apply incl_appl, incl_refl. - auto. - apply incl_appr, incl_refl. - auto. }
  induction e as [n|l|sup r sel args IHr IHa|e IH|e IH|vs e IH|label ps ls ss ret per IHs IHr] using src_ind'.
  - split; auto. intros rho p [].
  - split; auto. intros rho p [].
  - split; auto. intros rho. rewrite blocks_send. destruct IHr as [R1 R2].
    assert (IN : forall a, (match a with
      | SBlk _ _ _ ss ret _ => forall rho p, In p (body_blocks ss ret rho) -> within p (body_blocks ss ret rho)
      | _ => True end) -> forall p, In p (blocks_inl a rho) -> within p (blocks_inl a rho)).
    { intros a H p Hp. destruct a; cbn [blocks_inl] in *; try destruct Hp. auto. }
    assert (A1 : forall p, In p (flat_map (fun a => blocks_inl a rho) args) -> within p (flat_map (fun a => blocks_inl a rho) args)).
    { apply FM. eapply Forall_impl; [|exact IHa]. intros a [_ H]. apply IN. auto. }
    assert (A2 : forall p, In p (flat_map (fun a => blocks a rho) args) -> within p (flat_map (fun a => blocks a rho) args)).
    { apply FM. eapply Forall_impl; [|exact IHa]. intros a [H _]. apply H. }
    destruct (special_form sup r sel args) as [[]|]; apply AP; auto.
  - split; auto. intros. apply IH; auto.
  - split; auto. intros. apply IH; auto.
  - split; auto. intros. apply IH; auto.
  - assert (B : forall rho p, In p (body_blocks ss ret rho) -> within p (body_blocks ss ret rho)).
    { intros rho. unfold body_blocks. apply AP.
      - apply FM. eapply Forall_impl; [|exact IHs]. intros a [H _]. apply H.
      - destruct ret; [apply IHr|intros p []]. }
    split; auto. intros rho p [<- | Hp].
    + unfold within. cbn [fst snd]. intros x Hx. right. apply created_incl. exact Hx.
    + eapply within_incl; [|apply (B _ p Hp)]. intros x Hx. right. exact Hx.
Qed.
Lemma body_within ss ret rho p : In p (body_blocks ss ret rho) -> within p (body_blocks ss ret rho).
Proof. apply (proj2 (blocks_within (SBlk 0 [] [] ss ret false))). Qed.

(** Facts about the block literals that hold because they hold of the source. *)
Definition lit_ok (m : msrc) (p : src * env) : Prop :=
  blocky (snd p) /\ 0 < length (snd p) /\
  match fst p with
  | SBlk _ ps ls ss ret _ => forallb ok_src ss = true /\ ok_ret ret = true /\
      (existsb rets ss || match ret with Some _ => true | None => false end = true -> returns_from_blocks m = true)
  | _ => False
  end.
Lemma add_layer_length ls rho : length (add_layer ls rho) = length rho.
Proof. destruct rho; auto. Qed.
Lemma blocks_lit m : forall e, ok_src e = true -> (rets e = true -> returns_from_blocks m = true) ->
  (forall rho, blocky rho -> 0 < length rho -> Forall (lit_ok m) (blocks e rho)) /\
  match e with
  | SBlk _ _ _ ss ret _ => forall rho, blocky rho -> 0 < length rho -> Forall (lit_ok m) (body_blocks ss ret rho)
  | _ => True
  end.
Proof.
  induction e as [n|l|sup r sel args IHr IHa|e IH|e IH|vs e IH|label ps ls ss ret per IHs IHr] using src_ind';
    intros Ho Hr; cbn [ok_src] in Ho; repeat rewrite andb_true_iff in Ho; cbn [rets] in Hr.
  - split; auto. intros. constructor.
  - split; auto. intros. constructor.
  - split; auto. intros rho Hb Hl. rewrite blocks_send. destruct Ho as [[[Ho1 Ho2] _] _].
    destruct (IHr Ho1) as [R1 R2]; [intros E; apply Hr; rewrite E; auto|].
    assert (IHa' : Forall (fun a => (forall rho, blocky rho -> 0 < length rho -> Forall (lit_ok m) (blocks a rho)) /\
       forall rho, blocky rho -> 0 < length rho -> Forall (lit_ok m) (blocks_inl a rho)) args).
    { apply Forall_forall. intros a Ha. rewrite Forall_forall in IHa. rewrite forallb_forall in Ho2.
      destruct (IHa a Ha (Ho2 a Ha)) as [A1 A2].
      { intros E. apply Hr. apply orb_true_iff. right. apply existsb_exists. eauto. }
      split; auto. intros rho' Hb' Hl'. destruct a; cbn [blocks_inl]; auto. apply A2.
      - apply blocky_add_layer; auto. - rewrite add_layer_length; auto. }
    assert (R3 : Forall (lit_ok m) (blocks_inl r rho)).
    { destruct r; cbn [blocks_inl]; auto. apply R2; [apply blocky_add_layer; auto|rewrite add_layer_length; auto]. }
    assert (A1 : Forall (lit_ok m) (flat_map (fun a => blocks_inl a rho) args)).
    { apply Forall_flat_map. eapply Forall_impl; [|exact IHa']. intros a [_ H]. auto. }
    assert (A2 : Forall (lit_ok m) (flat_map (fun a => blocks a rho) args)).
    { apply Forall_flat_map. eapply Forall_impl; [|exact IHa']. intros a [H _]. auto. }
    destruct (special_form sup r sel args) as [[]|]; apply Forall_app; auto.
  - split; auto. apply (IH Ho Hr).
  - split; auto. apply (IH Ho Hr).
  - split; auto. destruct Ho as [_ Ho]. apply (IH Ho Hr).
  - destruct Ho as [[[_ _] Ho1] Ho2].
    assert (B : forall rho, blocky rho -> 0 < length rho -> Forall (lit_ok m) (body_blocks ss ret rho)).
    { intros rho Hb Hl. unfold body_blocks. apply Forall_app. split.
      - apply Forall_flat_map. apply Forall_forall. intros a Ha. rewrite Forall_forall in IHs. rewrite forallb_forall in Ho1.
        apply (IHs a Ha (Ho1 a Ha)); auto. intros E. apply Hr. apply orb_true_iff. left. apply existsb_exists. eauto.
      - destruct ret; auto. apply IHr; auto. intros _. apply Hr. apply orb_true_r. }
    split; auto. intros rho Hb Hl. cbn [blocks]. constructor.
    + split; auto. split; auto. cbn [fst snd]. auto.
    + apply B; [|cbn; lia]. cbn [add_level blocky]. destruct rho; [cbn in Hl; lia|]. split; auto.
Qed.

Section Nlr.
Variable M : nat -> option msrc.
Variable P : prog.
Hypothesis HP : ok_prog M P.
Notation catch := (p_catch P).
Notation inv := (inv M catch).

Lemma ms_blocks_lit mid m : M mid = Some m -> Forall (lit_ok m) (ms_blocks m).
Proof.
  intros E. destruct HP as (_ & _ & H). destruct (H mid m E) as [(H1 & H2 & _) _].
  unfold ms_blocks, body_blocks. apply Forall_app. split.
  - apply Forall_flat_map. apply Forall_forall. intros a Ha. rewrite forallb_forall in H1.
    apply (blocks_lit m a (H1 a Ha)); [|exact I|cbn; lia]. intros Er. unfold returns_from_blocks.
    apply orb_true_iff. left. apply existsb_exists. eauto.
  - destruct (ms_ret m) as [e|] eqn:Er; auto. apply (blocks_lit m e H2); [|exact I|cbn; lia].
    intros E'. unfold returns_from_blocks. rewrite Er, E'. apply orb_true_r.
Qed.
Lemma block_of_in m l b rho : block_of m l = Some (b, rho) -> In (b, rho) (ms_blocks m) /\ label_of b = l.
Proof. unfold block_of. intros H. apply find_some in H. cbn in H. destruct H as [H E]. apply Nat.eqb_eq in E. auto. Qed.
Lemma in_block_of mid m b rho : M mid = Some m -> In (b, rho) (ms_blocks m) -> block_of m (label_of b) = Some (b, rho).
Proof.
  intros E. destruct HP as (_ & _ & H). destruct (H mid m E) as [(_ & _ & H1) _]. unfold block_of. clear H.
  induction (ms_blocks m) as [|[c rc] l IH]; intros Hi; [destruct Hi|]. cbn [map fst] in H1. inversion H1 as [|? ? Hn Hd]; subst.
  cbn [find fst]. destruct Hi as [Hi|Hi].
  - inversion Hi; subst. rewrite Nat.eqb_refl. auto.
  - destruct (Nat.eqb_spec (label_of c) (label_of b)) as [Eq|]; auto. exfalso. apply Hn. rewrite Eq.
    apply in_map_iff. exists (b, rho). auto.
Qed.

(** * Corresponding outcomes *)
Definition Rs (stk : list (nat * nat * nat)) (s1 s2 : vm) : Prop := s2 = er_vm s1 /\ inv stk s1.
Definition Rx (stk : list (nat * nat * nat)) (x1 x2 : stop) (s1 s2 : vm) : Prop := x1 = x2 /\
  match x1 with
  | XPy _ => v_store s1 = v_store s2
  | XRet h _ => Rs stk s1 s2 /\ In h (ids stk) /\
      exists fh, nth_error (v_frames s1) h = Some fh /\ f_outer fh = None /\ catch (f_meth fh) = true
  end.
Definition rel2 {A} stk (o1 o2 : vout A) : Prop := (o1 = Hang /\ o2 = Hang) \/ rel_out (Rs stk) (Rx stk) o1 o2.
Definition flipx (R : stop -> stop -> vm -> vm -> Prop) (x1 x2 : stop) (s1 s2 : vm) : Prop := R x2 x1 s2 s1.
Definition flips (R : vm -> vm -> Prop) (s1 s2 : vm) : Prop := R s2 s1.
Lemma rel2_lims {A} stk (o1 o2 : vout A) : rel2 stk o1 o2 <->
  lim (Rs stk) (Rx stk) o1 (fun _ => o2) /\ lim (flips (Rs stk)) (flipx (Rx stk)) o2 (fun _ => o1).
Proof.
  split.
  - intros [[-> ->]|H]; [split; left; auto|]. split; right; [exists o2, 0|exists o1, 0]; split; auto.
    destruct H; constructor; auto.
  - intros [[-> |(o & J & E & H)] H2].
    + destruct H2 as [-> |(o & J & E & H)]; [left; auto|]. rewrite <- (E J (le_n _)) in H. inversion H.
    + right. rewrite <- (E J (le_n _)) in H. exact H.
Qed.
Lemma rel2_hang {A} stk : rel2 stk (@Hang vm stop A) Hang.
Proof. left; auto. Qed.
Lemma rel2_stuck {A} stk : rel2 stk (@Stuck vm stop A) Stuck.
Proof. right; constructor. Qed.
Lemma rel2_done {A} stk (a : A) s : inv stk s -> rel2 stk (Done a s) (Done a (er_vm s)).
Proof. right; constructor. split; auto. Qed.
Lemma rel2_raise {A} stk e s : rel2 (A := A) stk (raise e s) (raise e (er_vm s)).
Proof. right; constructor. split; auto. Qed.
Lemma rel2_bind {A B} stk (o1 o2 : vout A) (f g : A -> vm -> vout B) : rel2 stk o1 o2 ->
  (forall a s, inv stk s -> rel2 stk (f a s) (g a (er_vm s))) -> rel2 stk (bind o1 f) (bind o2 g).
Proof.
  intros [[-> ->]|H] F; [apply rel2_hang|]. destruct H as [a s1 s2 [-> Hi]|v s1 s2 H|x1 x2 s1 s2 H|]; cbn.
  - auto.
  - right; constructor; auto.
  - right; constructor; auto.
  - apply rel2_stuck.
Qed.

(** * Sends and primitives *)
Section Calls.
Variable stk : list (nat * nat * nat).
Variables call1 call2 : callee -> list value -> vm -> vout value.
Hypothesis Hcall : forall c args s, inv stk s -> rel2 stk (call1 c args s) (call2 c args (er_vm s)).
Lemma send_rel2 sel args s : inv stk s -> rel2 stk (vm_send P call1 sel args s) (vm_send P call2 sel args (er_vm s)).
Proof.
  intros H. unfold vm_send. destruct args as [|r args]; [apply rel2_stuck|]. cbn [v_store er_vm].
  destruct (p_find P sel r (v_store s)); auto.
  destruct (p_dnu P sel (r :: args) (v_store s)) as [args' st] eqn:E.
  change (set_store st (er_vm s)) with (er_vm (set_store st s)).
  destruct (p_find P t_dnu r st); [|apply rel2_raise]. apply Hcall. apply inv_store; auto.
  destruct HP as (_ & [_ D] & _). specialize (D sel (r :: args) (v_store s)). rewrite E in D. exact D.
Qed.
Lemma send2_rel2 sel r a s : inv stk s -> rel2 stk (vm_send2 P call1 sel r a s) (vm_send2 P call2 sel r a (er_vm s)).
Proof. intros H. unfold vm_send2. cbn [v_store er_vm]. destruct (p_find _ _ _ _); [auto|apply rel2_raise]. Qed.
Variables enter1 enter2 : nat -> nat -> nat -> list value -> vm -> vout value.
Hypothesis Henter : forall m l o a args s, inv stk s -> nth_error (s_objs (v_store s)) a = Some (OBlk m l o) ->
  rel2 stk (enter1 m l o (VObj a :: args) s) (enter2 m l o (VObj a :: args) (er_vm s)).
Lemma value_rel2 blk args s : inv stk s -> rel2 stk (vm_value enter1 blk args s) (vm_value enter2 blk args (er_vm s)).
Proof.
  intros H. unfold vm_value. cbn [v_store er_vm]. destruct blk; try apply rel2_raise. cbn [the_block].
  destruct (nth_error (s_objs (v_store s)) n) as [[]|] eqn:E; try apply rel2_raise. auto.
Qed.
Lemma while_rel2 n c b on : forall s, inv stk s -> rel2 stk (vm_while enter1 n c b on s) (vm_while enter2 n c b on (er_vm s)).
Proof.
  induction n as [|n IH]; intros s H; cbn [vm_while]; [apply rel2_hang|].
  apply rel2_bind; [apply value_rel2; auto|]. intros v t Ht. destruct (takes _ v); [|apply rel2_done; auto].
  apply rel2_bind; [apply value_rel2; auto|]. auto.
Qed.
Lemma act_rel2 n a : honest a -> forall s, inv stk s ->
  rel2 stk (run_act P call1 enter1 n a s) (run_act P call2 enter2 n a (er_vm s)).
Proof.
  induction 1; intros s Hs; cbn [run_act].
  - apply rel2_done; auto.
  - apply rel2_raise.
  - change (set_store (f (v_store (er_vm s))) (er_vm s)) with (er_vm (set_store (f (v_store s)) s)).
    apply H1. apply inv_store; auto.
  - apply rel2_bind; [apply send_rel2; auto|]. auto.
  - apply rel2_bind; auto.
  - apply rel2_bind; [apply value_rel2; auto|]. auto.
  - cbn [v_store er_vm]. destruct (the_block (v_store s) b); [|apply rel2_raise].
    destruct (the_block (v_store s) c); [|apply rel2_raise].
    apply rel2_bind; [apply while_rel2; auto|]. auto.
Qed.
End Calls.

(** * The machine of an activation *)
Section Machine.
Variables (stk : list (nat * nat * nat)) (fid mid d : nat).
Notation stk' := ((fid, mid, d) :: stk).
Variables call1 call2 : callee -> list value -> vm -> vout value.
Hypothesis Hcall : forall c args s, inv stk' s -> rel2 stk' (call1 c args s) (call2 c args (er_vm s)).
Notation μ1 := (vm_machine P call1 (vm_nlr P call1) mid fid).
Notation μ2 := (vm_machine P call2 (fun fid _ v s => do_return P call2 (fid :: ids stk) fid v s) mid fid).
Lemma cur_here s : inv stk' s -> cur mid d fid (v_frames s).
Proof. intros H. apply (i_stk _ _ _ _ H). left; auto. Qed.
Lemma at_rel2 {A} k s (f g : nat -> frame -> vout A) : inv stk' s ->
  (forall i fr, up (v_frames s) k fid = Some i -> nth_error (v_frames s) i = Some fr -> rel2 stk' (f i fr) (g i (er fr))) ->
  rel2 stk' (at_level k fid s f) (at_level k fid (er_vm s) g).
Proof.
  intros H F. unfold at_level. cbn [v_frames er_vm]. rewrite up_er.
  destruct (up (v_frames s) k fid) as [i|] eqn:Eu; [|apply rel2_raise]. rewrite nth_error_map.
  destruct (nth_error (v_frames s) i) as [fr|] eqn:E; cbn [option_map]; [|apply rel2_raise]. auto.
Qed.
Lemma fields_rel2 {A} k s (f g : nat -> nat -> list value -> vout A) : inv stk' s ->
  (forall a c fl, nth_error (s_objs (v_store s)) a = Some (OInst c fl) -> rel2 stk' (f a c fl) (g a c fl)) ->
  rel2 stk' (vm_fields fid k s f) (vm_fields fid k (er_vm s) g).
Proof.
  intros H F. unfold vm_fields. apply at_rel2; auto. intros i fr _ _. cbn [er f_args v_store er_vm].
  destruct (nth_error (f_args fr) 0) as [[]|]; try apply rel2_raise.
  destruct (nth_error (s_objs (v_store s)) n) as [[]|] eqn:E; try apply rel2_raise. auto.
Qed.
Lemma getf_rel2 k i s : inv stk' s -> rel2 stk' (vm_getf fid k i s) (vm_getf fid k i (er_vm s)).
Proof.
  intros H. apply fields_rel2; auto. intros a c fl _. destruct (nth_error fl i); [apply rel2_done; auto|apply rel2_raise].
Qed.
Lemma setf_rel2 k i v s : inv stk' s -> rel2 stk' (vm_setf fid k i v s) (vm_setf fid k i v (er_vm s)).
Proof.
  intros H. apply fields_rel2; auto. intros a c fl E. destruct (i <? length fl); [|apply rel2_raise].
  cbn [v_store er_vm]. match goal with |- rel2 _ (Done _ (set_store ?st _)) _ =>
    change (set_store st (er_vm s)) with (er_vm (set_store st s)) end. apply rel2_done. apply inv_store; auto.
  intros b m l o. cbn. rewrite nth_set_at. destruct (Nat.eqb_spec b a) as [-> |]; [|tauto].
  rewrite E. split; discriminate.
Qed.
Lemma res_rel2 r s : inv stk' s -> rel2 stk' (of_res r s) (of_res r (er_vm s)).
Proof. intros H. destruct r; cbn; [apply rel2_done; auto|apply rel2_raise]. Qed.
Lemma rd_rel2 k v s : inv stk' s -> rel2 stk' (vm_rd fid k v s) (vm_rd fid k v (er_vm s)).
Proof.
  intros H. apply at_rel2; auto. intros i fr _ _. cbn [er f_locs f_args]. destruct v; [apply rel2_done; auto|].
  destruct (nth_error _ _); [apply rel2_done; auto|apply rel2_raise].
Qed.
Lemma wr_rel2 k v x s : assignable d k v -> inv stk' s -> rel2 stk' (vm_wr fid k v x s) (vm_wr fid k v x (er_vm s)).
Proof.
  intros Ha H. apply at_rel2; auto. intros i fr Eu E. cbn [er f_locs f_args f_meth f_outer f_live].
  assert (Es : forall fr', er_vm (set_frame i fr' s) = set_frame i (er fr') (er_vm s)).
  { intros fr'. unfold er_vm, set_frame. cbn. f_equal. apply map_set_at. }
  destruct v as [dl|a].
  - match goal with |- rel2 _ (Done _ (set_frame _ ?f _)) _ => specialize (Es f) end.
    unfold er in Es. cbn [f_meth f_args f_locs f_outer f_live] in Es. rewrite <- Es. apply rel2_done. eapply inv_set; eauto.
  - destruct (a <? length (f_args fr)) eqn:El; [|apply rel2_raise].
    match goal with |- rel2 _ (Done _ (set_frame _ ?f _)) _ => specialize (Es f) end.
    unfold er in Es. cbn [f_meth f_args f_locs f_outer f_live] in Es. rewrite <- Es. apply rel2_done. eapply inv_set; eauto. cbn [f_args f_outer]. intros Ho.
    destruct a as [|a]; [|destruct (f_args fr); auto]. cbn [assignable] in Ha. subst k.
    destruct (cur_here s H) as (? & h & fh & _ & _ & A & B & C & _). congruence.
Qed.
Lemma blk_rel2 l s : (exists m b rho, M mid = Some m /\ block_of m l = Some (b, rho) /\ depth rho = d) ->
  inv stk' s -> rel2 stk' (vm_blk fid l s) (vm_blk fid l (er_vm s)).
Proof.
  intros (m & b & rho & Em & Eb & Ed) H. unfold vm_blk. cbn [v_frames er_vm v_store]. rewrite nth_error_map.
  pose proof (cur_here s H) as C. pose proof C as (fr & _ & _ & A1 & A2 & _). rewrite A1. cbn [option_map er f_meth].
  match goal with |- rel2 _ (Done _ (set_store ?st _)) _ => change (set_store st (er_vm s)) with (er_vm (set_store st s)) end.
  apply rel2_done. apply inv_new; auto. rewrite A2. exists m, b, rho. rewrite Ed. auto.
Qed.
Lemma glob_rel2 t s : inv stk' s -> rel2 stk' (vm_glob P call1 fid t s) (vm_glob P call2 fid t (er_vm s)).
Proof.
  intros H. unfold vm_glob. cbn [v_store er_vm]. destruct (assoc_glob t (s_globs (v_store s))); [apply rel2_done; auto|].
  change (Vm (v_store s) (map er (v_frames s))) with (er_vm s). rewrite dyn_er.
  destruct (self_dynamically s fid); [|apply rel2_hang]. eapply send2_rel2; eauto.
Qed.
Lemma nlr_rel2 v s : catch mid = true -> 0 < d -> inv stk' s ->
  rel2 stk' (vm_nlr P call1 fid d v s) (do_return P call2 (fid :: ids stk) fid v (er_vm s)).
Proof.
  intros Hc Hd H. destruct (cur_here s H) as (fr & h & fh & A1 & A2 & A3 & A4 & A5 & A6).
  unfold vm_nlr, at_level. rewrite A3, A4. unfold do_return, home_of. cbn [v_frames er_vm v_store]. rewrite home_er, map_length.
  assert (Hl : fid < length (v_frames s)) by (apply nth_error_Some; congruence).
  pose proof (up_lt _ _ _ _ H _ _ _ A3) as Hu.
  rewrite (up_home _ _ _ _ _ _ A3 A4 A5) by lia.
  pose proof (i_frame _ _ _ _ H h fh A4) as F. unfold frame_ok in F. rewrite A5, A6 in F. specialize (F Hc).
  change (ids stk') with (fid :: ids stk) in F.
  destruct (existsb (Nat.eqb h) (fid :: ids stk)) eqn:Ex.
  - apply existsb_exists in Ex. destruct Ex as (y & Hy & E). apply Nat.eqb_eq in E. subst y.
    rewrite (proj2 F Hy). right. constructor. split; auto. split; [split; auto|]. split; [exact Hy|].
    exists fh. rewrite A6. auto.
  - destruct (f_live fh) eqn:El.
    { exfalso. assert (T : existsb (Nat.eqb h) (fid :: ids stk) = true); [|congruence].
      apply existsb_exists. exists h. split; [apply F; auto|apply Nat.eqb_refl]. }
    destruct (dyn_home _ _ _ _ H _ _ _ A3) as [E1 E2]. rewrite E1. destruct (E2 Hd) as [b Eb]. rewrite Eb.
    rewrite !receiver_er, Eb. destruct (receiver (v_frames s) h) as [r|]; [|apply rel2_hang].
    rewrite self_er. destruct (self_of _ _ _ r); [|apply rel2_hang]. eapply send2_rel2; eauto.
Qed.

Definition nl (k : nat) : Prop := k = d /\ 0 < d /\ catch mid = true.
Definition lb (l : nat) : Prop := exists m b rho, M mid = Some m /\ block_of m l = Some (b, rho) /\ depth rho = d.
Lemma machines_rel :
  rel_machine (Rs stk') (Rx stk') nl lb (assignable d) μ1 (fun _ => μ2) /\
  rel_machine (flips (Rs stk')) (flipx (Rx stk')) nl lb (assignable d) μ2 (fun _ => μ1).
Proof.
  assert (incf_rel2 : forall k i s, inv stk' s -> rel2 stk' (vm_incf P fid k i s) (vm_incf P fid k i (er_vm s))).
  { intros. apply rel2_bind; [apply getf_rel2; auto|]. intros. apply rel2_bind; [apply res_rel2; auto|]. intros.
    apply rel2_bind; [apply setf_rel2; auto|]. intros. apply rel2_done; auto. }
  assert (super_rel2 : forall t l s, inv stk' s -> rel2 stk' (vm_super P call1 mid t l s) (vm_super P call2 mid t l (er_vm s))).
  { intros. unfold vm_super. cbn [v_store er_vm]. destruct (p_super _ _ _ _); [auto|apply rel2_raise]. }
  split; constructor.
  - intros t l s1 s2 [-> H]. cbn. apply rel2_lims. eapply send_rel2; eauto.
  - intros t l s1 s2 [-> H]. cbn. apply rel2_lims. auto.
  - intros t s1 s2 [-> H]. cbn. apply rel2_lims. apply glob_rel2; auto.
  - intros l s1 s2 L [-> H]. cbn. apply rel2_lims. apply blk_rel2; auto.
  - intros k v s1 s2 [-> H]. cbn. apply rel2_lims. apply rd_rel2; auto.
  - intros k v x s1 s2 W [-> H]. cbn. apply rel2_lims. apply wr_rel2; auto.
  - intros k i s1 s2 [-> H]. cbn. apply rel2_lims. apply getf_rel2; auto.
  - intros k i v s1 s2 [-> H]. cbn. apply rel2_lims. apply setf_rel2; auto.
  - intros k i s1 s2 [-> H]. cbn. apply rel2_lims. auto.
  - intros v s1 s2 [-> H]. cbn. apply rel2_lims. apply res_rel2; auto.
  - intros v s1 s2 [-> H]. cbn. apply rel2_lims. apply res_rel2; auto.
  - intros k v s1 s2 (-> & Hd & Hc) [-> H]. cbn. apply rel2_lims. apply nlr_rel2; auto.
  - intros t l s1 s2 [-> H]. cbn. apply rel2_lims. eapply send_rel2; eauto.
  - intros t l s1 s2 [-> H]. cbn. apply rel2_lims. auto.
  - intros t s1 s2 [-> H]. cbn. apply rel2_lims. apply glob_rel2; auto.
  - intros l s1 s2 L [-> H]. cbn. apply rel2_lims. apply blk_rel2; auto.
  - intros k v s1 s2 [-> H]. cbn. apply rel2_lims. apply rd_rel2; auto.
  - intros k v x s1 s2 W [-> H]. cbn. apply rel2_lims. apply wr_rel2; auto.
  - intros k i s1 s2 [-> H]. cbn. apply rel2_lims. apply getf_rel2; auto.
  - intros k i v s1 s2 [-> H]. cbn. apply rel2_lims. apply setf_rel2; auto.
  - intros k i s1 s2 [-> H]. cbn. apply rel2_lims. auto.
  - intros v s1 s2 [-> H]. cbn. apply rel2_lims. apply res_rel2; auto.
  - intros v s1 s2 [-> H]. cbn. apply rel2_lims. apply res_rel2; auto.
  - intros k v s1 s2 (-> & Hd & Hc) [-> H]. cbn. apply rel2_lims. apply nlr_rel2; auto.
Qed.

(** Bodies. *)
Lemma method_rel2 m n s : d = 0 -> M mid = Some m -> inv stk' s ->
  rel2 stk' (eval_method (ms_fields m) (ms_body m) (ms_ret m) μ1 (ms_env m) n s)
            (eval_method (ms_fields m) (ms_body m) (ms_ret m) μ2 (ms_env m) n (er_vm s)).
Proof.
  intros Hd Em H. destruct machines_rel as [R1 R2]. destruct HP as (_ & _ & Ho). destruct (Ho mid m Em) as [(O1 & O2 & _) _].
  assert (B : forall b rho', In (b, rho') (created_body (ms_body m) (ms_ret m) (ms_env m)) ->
    match b with SBlk l _ _ _ _ _ => lb l | _ => True end).
  { intros b rho' Hb. destruct b as [| | | | | |label params locals ss ret period]; auto. pose proof (created_body_block _ _ _ _ _ Hb) as (_ & Hdp & _).
    apply created_incl in Hb. exists m, (SBlk label params locals ss ret period), rho'. split; auto. split; [|rewrite Hdp; cbn; auto].
    apply (in_block_of mid m _ _ Em Hb). }
  assert (W : wr_ok (assignable d) (ms_env m)) by (split; [exact I|rewrite Hd; auto]).
  apply rel2_lims. split.
  - eapply eval_method_rel; eauto. split; auto.
  - eapply eval_method_rel; eauto. split; auto.
Qed.
Lemma closure_rel2 m b rho n s : M mid = Some m -> In (b, rho) (ms_blocks m) -> d = Datatypes.S (depth rho) -> inv stk' s ->
  rel2 stk' (eval_closure (ms_fields m) b rho μ1 n s) (eval_closure (ms_fields m) b rho μ2 n (er_vm s)).
Proof.
  intros Em Hi Hd H. destruct machines_rel as [R1 R2]. destruct HP as (_ & _ & Ho). destruct (Ho mid m Em) as [_ Hc].
  pose proof (ms_blocks_lit mid m Em) as L. rewrite Forall_forall in L. specialize (L _ Hi).
  destruct L as (Hb & Hl & L). cbn [fst snd] in *. destruct b as [| | | | | |label ps ls ss ret per]; try contradiction. destruct L as (O1 & O2 & Hr).
  assert (Dp : depth (add_level ps ls rho) = d).
  { rewrite Hd. unfold depth, add_level. cbn. lia. }
  assert (MB : may_body nl lb (assignable d) ss ret (add_level ps ls rho)).
  { split; [|split].
    - split; [|rewrite Dp; auto]. cbn [add_level blocky]. destruct rho; [cbn in Hl; lia|]. split; auto.
    - intros Hr' Hp. rewrite Dp in *. split; auto.
    - intros b rho' Hb'. destruct b as [| | | | | |label0 params locals ss0 ret0 period]; auto. pose proof (created_body_block _ _ _ _ _ Hb') as (_ & Hdp & _).
      assert (Hin : In (SBlk label0 params locals ss0 ret0 period, rho') (ms_blocks m)).
      { apply (body_within _ _ _ _ Hi). exact Hb'. }
      exists m, (SBlk label0 params locals ss0 ret0 period), rho'. split; auto. split; [|rewrite Hdp, Dp; auto].
      apply (in_block_of mid m _ _ Em Hin). }
  apply rel2_lims. split.
  - eapply eval_closure_rel; eauto. split; auto.
  - eapply eval_closure_rel; eauto. split; auto.
Qed.
End Machine.

(** * Invocations *)
Definition entry (c : callee) (blk : option (nat * nat)) (args : list value) (s : vm) : Prop :=
  match blk with
  | None => True
  | Some (l, o) => exists m a r, c = CMeth m /\ args = VObj a :: r /\ nth_error (s_objs (v_store s)) a = Some (OBlk m l o)
  end.
Lemma er_mark i s : er_vm (mark i s) = er_vm s.
Proof.
  unfold mark. destruct (nth_error (v_frames s) i) as [f|] eqn:E; auto. unfold er_vm, set_frame. cbn. f_equal.
  rewrite map_set_at. change (er (Frame (f_meth f) (f_args f) (f_locs f) (f_outer f) false)) with (er f).
  assert (E' : nth_error (map er (v_frames s)) i = Some (er f)) by (rewrite nth_error_map, E; auto).
  revert E'. generalize (map er (v_frames s)) (er f). clear. intros l. revert i.
  induction l as [|a l IH]; intros [|i] x H; cbn in *; try discriminate; [congruence|]. f_equal. auto.
Qed.
Lemma er_push mid args outer s : er_vm (push_frame mid args outer s) = push_frame mid args outer (er_vm s).
Proof. unfold er_vm, push_frame. cbn. rewrite map_app. reflexivity. Qed.
Lemma activate_rel2 stk mid d cat args outer s body1 body2 :
  inv stk s ->
  cat = (match outer with None => catch mid | Some _ => false end) ->
  match outer with
  | None => d = 0
  | Some o => exists d' a l r, d = Datatypes.S d' /\ cur mid d' o (v_frames s) /\ args = VObj a :: r /\
                 nth_error (s_objs (v_store s)) a = Some (OBlk mid l o)
  end ->
  (inv ((length (v_frames s), mid, d) :: stk) (push_frame mid args outer s) ->
   rel2 ((length (v_frames s), mid, d) :: stk) (body1 (length (v_frames s)) (push_frame mid args outer s))
        (body2 (length (v_frames s)) (er_vm (push_frame mid args outer s)))) ->
  rel2 stk (activate cat body1 mid args outer s) (activation body2 mid args outer (er_vm s)).
Proof.
  intros H Ec Ho HB. pose proof (inv_fresh _ _ _ _ H) as Hf. pose proof (inv_push M catch _ _ mid args outer d H Ho) as Hp.
  specialize (HB Hp). unfold activate, activation. cbn [v_frames er_vm]. rewrite map_length.
  change (Vm (v_store s) (map er (v_frames s))) with (er_vm s). rewrite <- er_push.
  set (fid := length (v_frames s)) in *.
  assert (LV : forall s1, inv ((fid, mid, d) :: stk) s1 -> inv stk (if cat then mark fid s1 else s1) /\
     er_vm (if cat then mark fid s1 else s1) = er_vm s1).
  { intros s1 Hi. destruct cat.
    - split; [|apply er_mark]. destruct outer; [discriminate|]. subst d. eapply inv_mark; eauto.
    - split; auto. eapply inv_leave; eauto. destruct outer; [|intros; congruence].
      destruct Ho as (d' & _ & _ & _ & -> & _). intros; lia. }
  destruct HB as [[E1 E2]|R].
  { rewrite E1, E2. apply rel2_hang. }
  inversion R as [a s1 s2 [E Hi] E1 E2|a s1 s2 [E Hi] E1 E2|x1 x2 s1 s2 HX E1 E2|E1 E2]; subst.
  - destruct (LV _ Hi) as [L1 L2]. rewrite <- L2. apply rel2_done; auto.
  - destruct (LV _ Hi) as [L1 L2]. rewrite <- L2. apply rel2_done; auto.
  - destruct HX as [<- HX]. destruct x1 as [h v|e].
    + destruct HX as ([-> Hi] & Hin & fh & B1 & B2 & B3). destruct (LV _ Hi) as [L1 L2].
      destruct (Nat.eqb_spec h fid) as [-> | Hne].
      * assert (C : cur mid d fid (v_frames s1)) by (apply (i_stk _ _ _ _ Hi); left; auto).
        assert (E : (match outer with None => catch mid | Some _ => false end) = true).
        { destruct C as (fr & h & fh' & C1 & C2 & C3 & _). assert (fr = fh) by congruence. subst fr.
          destruct outer as [o|].
          - exfalso. destruct Ho as (d' & _ & _ & _ & -> & _). cbn [up] in C3. rewrite C1, B2 in C3. discriminate.
          - congruence. }
        rewrite E in L1, L2 |- *. cbn [andb]. rewrite <- L2. apply rel2_done; auto.
      * rewrite andb_false_r. rewrite <- L2. right. constructor. split; auto. split; [split; auto|]. split.
        { destruct Hin as [Hin|Hin]; [cbn in Hin; congruence|exact Hin]. }
        match goal with |- context [mark fid s1] => idtac | _ => idtac end.
        destruct (match outer with None => catch mid | Some _ => false end); [|eauto].
        unfold mark. destruct (nth_error (v_frames s1) fid) as [f|]; [|eauto]. cbn. rewrite nth_set_at.
        apply Nat.eqb_neq in Hne. rewrite Hne. eauto.
    + right. constructor. split; auto.
  - apply rel2_stuck.
Qed.
Theorem invoke_rel2 n : forall stk c blk args s, inv stk s -> entry c blk args s ->
  rel2 stk (call_at P n c blk args s) (spec_at P n (ids stk) c blk args (er_vm s)).
Proof.
  induction n as [|n IH]; intros stk c blk args s H He; [apply rel2_hang|]. cbn [call_at spec_at].
  destruct c as [m|p].
  2:{ apply act_rel2; [| |apply HP|exact H].
      - intros. apply IH; cbn; auto.
      - intros m l o a args0 s0 H0 H1. apply IH; auto. cbn. exists m, a, args0. auto. }
  cbn [v_frames er_vm]. rewrite map_length. change (Vm (v_store s) (map er (v_frames s))) with (er_vm s).
  assert (Pb : p_body P = source_body M) by apply HP.
  destruct blk as [[l o]|]; cbn [option_map fst snd].
  - destruct He as (m' & a & r & E & -> & Eo). inversion E; subst m'. clear E.
    destruct (i_obj _ _ _ _ H _ _ _ _ Eo) as (ms & b & rho & Em & Eb & C).
    eapply (activate_rel2 _ _ (Datatypes.S (depth rho))); eauto.
    { exists (depth rho), a, l, r. auto. }
    intros Hp. rewrite Pb. unfold source_body. rewrite Em, Eb. apply block_of_in in Eb. destruct Eb as [Eb _].
    apply closure_rel2; auto. intros c args s0 H0. exact (IH _ c None args s0 H0 I).
  - eapply (activate_rel2 _ _ 0); eauto. intros Hp. rewrite Pb. unfold source_body.
    destruct (M m) as [ms|] eqn:Em; [|apply rel2_stuck]. apply method_rel2; auto.
    intros c args0 s0 H0. exact (IH _ c None args0 s0 H0 I).
Qed.
Lemma inv_start st : no_blocks st -> inv [] (Vm st []).
Proof.
  intros H. constructor; cbn.
  - intros [|i] fr; discriminate.
  - intros a m l o E. destruct (H _ _ _ _ E).
  - intros i m d [].
Qed.
End Nlr.
