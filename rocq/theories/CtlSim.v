(** Runs with control structures in place and as messages: how the states correspond. *)
From Coq Require Import ZArith Bool String Ascii List Lia.
From Verif Require Import Base LexModel ParseModel BcModel BcInterp BcSpec BcTab BcCode BcEval BcLex VmModel VmSpec VmRel VmInv CtlModel CtlSpec.
Import ListNotations.
Open Scope nat_scope.
Open Scope list_scope.

(** * The messages *)
Section Messages.
Context {S X : Type}.
Ltac sels H := unfold special_of in H;
  repeat match type of H with (if text_eqb ?a ?b then _ else _) = _ =>
    let E := fresh "E" in destruct (text_eqb a b) eqn:E; [apply text_eqb_eq in E; subst a; injection H; intros; subst; clear H|] end;
  try discriminate.
Lemma control_then sel k v (f : S -> out S X value) g : special_of sel = Some (KThen k) ->
  control sel v [ABlk f] = Some g -> forall s, g s = if takes k v then Done (left_value k v) s else f s.
Proof. intros H C s. sels H; destruct v; vm_compute in C; try discriminate; injection C; intros <-; reflexivity. Qed.
Lemma control_andor sel b v (f : S -> out S X value) g : special_of sel = Some (KAndOr b) ->
  control sel v [ABlk f] = Some g -> forall s, g s = if takes (if b then OnTrue else OnFalse) v then Done (som_bool b) s else f s.
Proof. intros H C s. sels H; destruct v; vm_compute in C; try discriminate; injection C; intros <-; reflexivity. Qed.
Lemma control_else sel k v (f1 f2 : S -> out S X value) g : special_of sel = Some (KElse k) ->
  control sel v [ABlk f1; ABlk f2] = Some g -> forall s, g s = if takes k v then f2 s else f1 s.
Proof. intros H C s. sels H; destruct v; vm_compute in C; try discriminate; injection C; intros <-; reflexivity. Qed.
(** Which messages a receiver has does not depend on the blocks. *)
Lemma control_some sel v (f1 f2 : S -> out S X value) : control sel v [ABlk f1] = None -> control sel v [ABlk f2] = None.
Proof.
  unfold control, true_prim, false_prim, core_lib. destruct v;
    repeat match goal with |- context [text_eqb ?a ?b] => destruct (text_eqb a b); try discriminate end; auto.
Qed.
End Messages.

(** * Corresponding states *)
(** For each activation of the run with messages: the activation of the other run, the
    declarations it has, and whether it is an activation there as well. *)
Record wf := Wf { w_to : nat; w_ids : list nat; w_own : bool }.
Section Sim.
Variable M : nat -> option msrc.
Variable W : list wf.
(** Activation [i] of method [m] is nested in [L]. *)
Fixpoint scoped (W : list wf) (fs : list frame) (m : nat) (L : lexenv) (i : nat) : Prop :=
  match L with
  | [] => False
  | (own, l) :: L' => exists x f, nth_error W i = Some x /\ nth_error fs i = Some f /\ w_own x = own /\
      incl (flat_map (map snd) (lv_layers l)) (w_ids x) /\ f_meth f = m /\
      match L' with
      | [] => f_outer f = None
      | _ => exists o, f_outer f = Some o /\ scoped W fs m L' o
      end
  end.
Definition blk_sim (fs : list frame) (m l c1 c2 : nat) : Prop := exists x ms b L,
  nth_error W c2 = Some x /\ w_to x = c1 /\ M m = Some ms /\ lex_block ms l = Some (b, L) /\ scoped W fs m L c2.
Definition obj_sim (fs : list frame) (o1 o2 : obj) : Prop :=
  match o1, o2 with
  | OBlk m l c1, OBlk m' l' c2 => m = m' /\ l = l' /\ blk_sim fs m l c1 c2
  | _, _ => o1 = o2
  end.
Definition frame_sim (i : nat) (x : wf) (f1 f2 : frame) : Prop :=
  f_meth f1 = f_meth f2 /\
  (forall d, In d (w_ids x) -> assoc_loc d (f_locs f1) = assoc_loc d (f_locs f2)) /\
  if w_own x
  then f_args f1 = f_args f2 /\
       match f_outer f2 with
       | None => f_outer f1 = None
       | Some o => f_args f2 <> [] /\ o < i /\
                   exists y, nth_error W o = Some y /\ f_outer f1 = Some (w_to y) /\ w_to y < w_to x
       end
  else f_args f2 = [] /\ exists o y, f_outer f2 = Some o /\ o < i /\ nth_error W o = Some y /\ w_to y = w_to x.
Record sim (s1 s2 : vm) : Prop := {
  m_len : length W = length (v_frames s2);
  m_le : length (v_frames s1) <= length (v_frames s2);
  m_globs : s_globs (v_store s1) = s_globs (v_store s2);
  m_out : s_out (v_store s1) = s_out (v_store s2);
  m_objs : Forall2 (obj_sim (v_frames s2)) (s_objs (v_store s1)) (s_objs (v_store s2));
  m_frames : forall i x, nth_error W i = Some x -> exists f1 f2,
    nth_error (v_frames s1) (w_to x) = Some f1 /\ nth_error (v_frames s2) i = Some f2 /\ frame_sim i x f1 f2;
  m_own : forall i j x y, nth_error W i = Some x -> nth_error W j = Some y ->
    w_own x = true -> w_own y = true -> w_to x = w_to y -> i = j;
  m_ids : forall i j x y d, nth_error W i = Some x -> nth_error W j = Some y ->
    w_to x = w_to y -> In d (w_ids x) -> In d (w_ids y) -> i = j;
  m_nil : forall F f1 d, nth_error (v_frames s1) F = Some f1 ->
    (forall i x, nth_error W i = Some x -> w_to x = F -> ~ In d (w_ids x)) -> assoc_loc d (f_locs f1) = VNil }.
End Sim.

Lemma Forall2_nth {A B} (R : A -> B -> Prop) l1 l2 : Forall2 R l1 l2 -> forall i,
  match nth_error l1 i, nth_error l2 i with Some a, Some b => R a b | None, None => True | _, _ => False end.
Proof. induction 1; intros [|i]; cbn; auto. apply IHForall2. Qed.
Lemma nth_Forall2 {A B} (R : A -> B -> Prop) : forall l1 l2, (forall i,
  match nth_error l1 i, nth_error l2 i with Some a, Some b => R a b | None, None => True | _, _ => False end) ->
  Forall2 R l1 l2.
Proof.
  induction l1 as [|a l1 IH]; intros [|b l2] H; auto; try (specialize (H 0); cbn in H; contradiction).
  constructor; [apply (H 0)|]. apply IH. intros i. apply (H (S i)).
Qed.
Lemma Forall2_len {A B} (R : A -> B -> Prop) l1 l2 : Forall2 R l1 l2 -> length l1 = length l2.
Proof. induction 1; cbn; auto. Qed.
Lemma Forall2_imp {A B} (R R' : A -> B -> Prop) l1 l2 : (forall a b, R a b -> R' a b) -> Forall2 R l1 l2 -> Forall2 R' l1 l2.
Proof. intros H. induction 1; constructor; auto. Qed.

Section Lemmas.
Variable M : nat -> option msrc.
Notation sim := (sim M).

Lemma sim_alike W s1 s2 : sim W s1 s2 -> alike (v_store s1) (v_store s2).
Proof.
  intros H. split; [apply (m_globs _ _ _ _ H)|split; [apply (m_out _ _ _ _ H)|]].
  eapply Forall2_imp; [|apply (m_objs _ _ _ _ H)]. intros a b Hab. destruct a, b; cbn in *; auto.
  destruct Hab as (A & B & _); auto.
Qed.
Lemma sim_store W s1 s2 st1 st2 : sim W s1 s2 -> alike st1 st2 ->
  same_blocks (v_store s1) st1 -> same_blocks (v_store s2) st2 -> sim W (set_store st1 s1) (set_store st2 s2).
Proof.
  intros H (Hg & Ho & Hb) B1 B2. destruct H. constructor; cbn; auto.
  apply nth_Forall2. intros a. pose proof (Forall2_nth _ _ _ Hb a) as Ha.
  destruct (nth_error (s_objs st1) a) as [o1|] eqn:E1, (nth_error (s_objs st2) a) as [o2|] eqn:E2; auto.
  destruct o1, o2; auto. destruct Ha as [<- <-]. pose proof (Forall2_nth _ _ _ m_objs0 a) as Hs.
  apply B1 in E1. apply B2 in E2. rewrite E1, E2 in Hs. exact Hs.
Qed.
Lemma sim_block W s1 s2 v : sim W s1 s2 ->
  match the_block (v_store s1) v, the_block (v_store s2) v with
  | Some (m, l, c1), Some (m', l', c2) => m = m' /\ l = l' /\ blk_sim M W (v_frames s2) m l c1 c2
  | None, None => True
  | _, _ => False
  end.
Proof.
  intros H. unfold the_block. destruct v; auto. pose proof (Forall2_nth _ _ _ (m_objs _ _ _ _ H) n) as Ha.
  destruct (nth_error (s_objs (v_store s1)) n) as [o1|], (nth_error (s_objs (v_store s2)) n) as [o2|]; auto; try contradiction.
  destruct o1, o2; cbn in Ha; try discriminate; auto.
Qed.

(** * Going outwards *)
Lemma scoped_cur W fs m L i : scoped W fs m L i -> exists x, nth_error W i = Some x.
Proof. destruct L as [|[own l] L]; cbn; [contradiction|]. intros (x & f & H & _). eauto. Qed.
Lemma scoped_up W s1 s2 m : sim W s1 s2 -> forall L, lex_ok L -> forall i x, scoped W (v_frames s2) m L i ->
  nth_error W i = Some x -> forall k p, nth_error L k = Some p -> exists j y,
  up (v_frames s2) k i = Some j /\ nth_error W j = Some y /\
  up (v_frames s1) (activation_of k L) (w_to x) = Some (w_to y) /\ w_own y = fst p /\
  incl (flat_map (map snd) (lv_layers (snd p))) (w_ids y) /\
  (S k = length L -> exists f1, nth_error (v_frames s1) (w_to y) = Some f1 /\ f_outer f1 = None).
Proof.
  intros H. induction L as [|[own l] L IH]; [contradiction|]. intros HL i x (x' & f & Hx & Hf & Ho & Hi & Hm & Hn) Hx' k p Hk.
  rewrite Hx' in Hx. injection Hx. intros <-. clear Hx.
  destruct (m_frames _ _ _ _ H i x Hx') as (f1 & f2 & F1 & F2 & FS). rewrite Hf in F2. injection F2. intros <-. clear F2.
  destruct k as [|k].
  - cbn in Hk. injection Hk. intros <-. exists i, x. cbn [up activation_of firstn filter length fst snd]. repeat split; auto.
    intros El. destruct L; [|discriminate]. exists f1. split; auto. cbn [lex_ok] in HL. subst own.
    destruct FS as (_ & _ & FS). rewrite Ho, Hn in FS. apply FS.
  - cbn [nth_error] in Hk. destruct L as [|q L]; [destruct k; discriminate|]. remember (q :: L) as L'. destruct Hn as (o & Eo & Hs).
    assert (HL' : lex_ok L') by (subst L'; destruct HL; auto).
    destruct (scoped_cur _ _ _ _ _ Hs) as (y & Hy).
    destruct (IH HL' o y Hs Hy k p Hk) as (j & z & U2 & Hz & U1 & A & B & C). exists j, z. cbn [up]. rewrite Hf, Eo.
    destruct FS as (_ & _ & FS). rewrite Ho in FS. rewrite Eo in FS.
    assert (U : up (v_frames s1) (activation_of (S k) ((own, l) :: L')) (w_to x) = Some (w_to z)).
    { unfold activation_of. cbn [firstn filter fst]. fold (activation_of k L'). destruct own.
      - cbn [length]. change (length (filter fst (firstn k L'))) with (activation_of k L'). cbn [up]. rewrite F1.
        destruct FS as (_ & _ & _ & y' & Hy' & E & _). rewrite Hy in Hy'. injection Hy'. intros <-. rewrite E. exact U1.
      - change (length (filter fst (firstn k L'))) with (activation_of k L').
        destruct FS as (_ & o' & y' & E & _ & Hy' & Ey). injection E. intros <-. rewrite Hy in Hy'. injection Hy'. intros <-.
        rewrite <- Ey. exact U1. }
    repeat split; auto.
Qed.
Lemma home_sim W s1 s2 : sim W s1 s2 -> forall n2 i x n1, nth_error W i = Some x -> i <= n2 -> w_to x <= n1 -> exists y,
  nth_error W (home (v_frames s2) n2 i) = Some y /\ w_to y = home (v_frames s1) n1 (w_to x) /\ w_own y = true.
Proof.
  intros H. induction n2 as [|n2 IH]; intros i x n1 Hx Hi H1.
  - assert (i = 0) by lia. subst i. cbn [home]. exists x. destruct (m_frames _ _ _ _ H 0 x Hx) as (f1 & f2 & F1 & F2 & _ & _ & FS).
    destruct (w_own x) eqn:Ex.
    + destruct FS as [_ FS]. destruct (f_outer f2) as [o|] eqn:Eo; [destruct FS; lia|].
      repeat split; auto. destruct n1; cbn [home]; auto. rewrite F1, FS. auto.
    + destruct FS as (_ & o & y & _ & Hlt & _). lia.
  - cbn [home]. destruct (m_frames _ _ _ _ H i x Hx) as (f1 & f2 & F1 & F2 & _ & _ & FS). rewrite F2.
    destruct (w_own x) eqn:Ex.
    + destruct FS as [_ FS]. destruct (f_outer f2) as [o|] eqn:Eo.
      * destruct FS as (_ & Hlt & y & Hy & E1 & Hlt1). destruct n1 as [|n1]; [lia|]. cbn [home]. rewrite F1, E1.
        apply IH; auto; lia.
      * exists x. repeat split; auto. destruct n1; cbn [home]; auto. rewrite F1, FS. auto.
    + destruct FS as (_ & o & y & Eo & Hlt & Hy & Ey). rewrite Eo. rewrite <- Ey. apply IH; auto; lia.
Qed.
Lemma sim_lt W s1 s2 i x : sim W s1 s2 -> nth_error W i = Some x -> i < length (v_frames s2) /\ w_to x < length (v_frames s1).
Proof.
  intros H Hx. destruct (m_frames _ _ _ _ H i x Hx) as (f1 & f2 & F1 & F2 & _). split; apply nth_error_Some; congruence.
Qed.
Lemma home_of_sim W s1 s2 i x : sim W s1 s2 -> nth_error W i = Some x -> exists y,
  nth_error W (home_of s2 i) = Some y /\ w_to y = home_of s1 (w_to x) /\ w_own y = true.
Proof. intros H Hx. destruct (sim_lt _ _ _ _ _ H Hx). apply home_sim; auto; lia. Qed.
Lemma receiver_sim W s1 s2 : sim W s1 s2 -> forall n i x, nth_error W i = Some x -> i <= n ->
  own_receiver (v_frames s2) n i = receiver (v_frames s1) (w_to x).
Proof.
  intros H. induction n as [|n IH]; intros i x Hx Hi;
    destruct (m_frames _ _ _ _ H i x Hx) as (f1 & f2 & F1 & F2 & _ & _ & FS); cbn [own_receiver]; unfold receiver; rewrite F1, F2;
    destruct (w_own x).
  - destruct FS as [-> FS]. destruct (f_args f2) eqn:Ea; auto. destruct (f_outer f2); auto.
  - destruct FS as (_ & o & y & _ & Hlt & _). lia.
  - destruct FS as [-> FS]. destruct (f_args f2) eqn:Ea; auto. destruct (f_outer f2); auto. destruct FS; congruence.
  - destruct FS as (-> & o & y & -> & Hlt & Hy & Ey). rewrite (IH o y Hy) by lia. unfold receiver. rewrite Ey, F1. auto.
Qed.
Lemma own_sim W s1 s2 i x : sim W s1 s2 -> nth_error W i = Some x -> w_own x = true ->
  receiver (v_frames s2) i = receiver (v_frames s1) (w_to x).
Proof.
  intros H Hx Ho. destruct (m_frames _ _ _ _ H i x Hx) as (f1 & f2 & F1 & F2 & _ & _ & FS). unfold receiver.
  rewrite F1, F2. rewrite Ho in FS. destruct FS as [-> _]. auto.
Qed.
Lemma self_in_sim W s1 s2 : sim W s1 s2 -> forall n v,
  self_in (v_store s2) (v_frames s2) n v = self_of (v_store s1) (v_frames s1) n v.
Proof.
  intros H. induction n as [|n IH]; intros v; pose proof (sim_block W s1 s2 v H) as B; cbn [self_in self_of];
    destruct (the_block (v_store s1) v) as [[[m l] c1]|], (the_block (v_store s2) v) as [[[m' l'] c2]|]; try contradiction; auto.
  destruct B as (_ & _ & x & ms & b & L & Hx & Ex & _). destruct (sim_lt _ _ _ _ _ H Hx).
  rewrite (receiver_sim _ _ _ H _ c2 x Hx) by lia. rewrite Ex. destruct (receiver (v_frames s1) c1); auto.
Qed.
Lemma self_full W s1 s2 v : sim W s1 s2 ->
  self_in (v_store s2) (v_frames s2) (length (v_frames s2)) v = self_of (v_store s1) (v_frames s1) (length (v_frames s1)) v.
Proof.
  intros H. rewrite (self_in_sim _ _ _ H). pose proof (m_le _ _ _ _ H) as Hl.
  destruct (self_of (v_store s1) (v_frames s1) (length (v_frames s1)) v) as [w|] eqn:E; [eapply self_enough; eauto|].
  destruct (self_of (v_store s1) (v_frames s1) (length (v_frames s2)) v) as [w|] eqn:E2; auto.
  rewrite (self_enough _ _ _ _ _ E2 _ (le_n _)) in E. discriminate.
Qed.
Lemma self_at_sim W s1 s2 i x : sim W s1 s2 -> nth_error W i = Some x -> self_at s2 i = self_dynamically s1 (w_to x).
Proof.
  intros H Hx. unfold self_at, self_dynamically. destruct (sim_lt _ _ _ _ _ H Hx). rewrite (receiver_sim _ _ _ H _ i x Hx) by lia.
  destruct (receiver (v_frames s1) (w_to x)); auto. apply (self_full _ _ _ _ H).
Qed.

(** * Growing *)
(** From then to now: activations [F] got blocks of control structures with declarations among
    [ids], the others are new. *)
Definition grows (F : nat) (ids : list nat) (W : list wf) (s1 s2 : vm) (W' : list wf) (t1 t2 : vm) : Prop :=
  (exists new, W' = W ++ new /\
     Forall (fun x => w_to x = F /\ incl (w_ids x) ids \/ length (v_frames s1) <= w_to x) new) /\
  keeps (v_frames s2) (v_frames t2) /\ length (v_frames s1) <= length (v_frames t1).
Lemma keeps_trans fs fs' fs'' : keeps fs fs' -> keeps fs' fs'' -> keeps fs fs''.
Proof.
  intros H1 H2 i f Hf. destruct (H1 i f Hf) as (f' & Hf' & A & B). destruct (H2 i f' Hf') as (f'' & Hf'' & C & D).
  exists f''. repeat split; congruence.
Qed.
Lemma grows_refl F ids W s1 s2 : grows F ids W s1 s2 W s1 s2.
Proof. split; [exists []; rewrite app_nil_r; auto|]. split; [apply keeps_refl|lia]. Qed.
Lemma grows_trans F a b W s1 s2 W' t1 t2 W'' u1 u2 :
  grows F a W s1 s2 W' t1 t2 -> grows F b W' t1 t2 W'' u1 u2 -> grows F (a ++ b) W s1 s2 W'' u1 u2.
Proof.
  intros ((n1 & -> & A) & B & C) ((n2 & -> & A') & B' & C'). split; [|split; [eapply keeps_trans; eauto|lia]].
  exists (n1 ++ n2). rewrite app_assoc. split; auto. apply Forall_app. split.
  - eapply Forall_impl; [|exact A]. cbn. intros x [[E I]|E]; [left; split; auto|auto]. apply incl_appl; auto.
  - eapply Forall_impl; [|exact A']. cbn. intros x [[E I]|E]; [left; split; auto; apply incl_appr; auto|right; lia].
Qed.
Lemma grows_incl F a b W s1 s2 W' t1 t2 : incl a b -> grows F a W s1 s2 W' t1 t2 -> grows F b W s1 s2 W' t1 t2.
Proof.
  intros H ((n & -> & A) & B). split; auto. exists n. split; auto. eapply Forall_impl; [|exact A]. cbn.
  intros x [[E I]|E]; auto. left. split; auto. eapply incl_tran; eauto.
Qed.
Lemma grows_nth F a W s1 s2 W' t1 t2 i x : grows F a W s1 s2 W' t1 t2 -> nth_error W i = Some x -> nth_error W' i = Some x.
Proof. intros ((n & -> & _) & _) H. rewrite nth_error_app1; auto. apply nth_error_Some. congruence. Qed.
Lemma scoped_keeps W W' fs fs' m : (forall i x, nth_error W i = Some x -> nth_error W' i = Some x) -> keeps fs fs' ->
  forall L i, scoped W fs m L i -> scoped W' fs' m L i.
Proof.
  intros HW HK. induction L as [|[own l] L IH]; intros i; cbn [scoped]; auto. intros (x & f & A & B & C & D & E & G).
  destruct (HK i f B) as (f' & B' & E' & O'). exists x, f'. rewrite E', O'. repeat split; auto.
  destruct L; auto. destruct G as (o & G & G'). exists o. auto.
Qed.
Lemma blk_keeps W W' fs fs' m l c1 c2 : (forall i x, nth_error W i = Some x -> nth_error W' i = Some x) -> keeps fs fs' ->
  blk_sim M W fs m l c1 c2 -> blk_sim M W' fs' m l c1 c2.
Proof.
  intros HW HK (x & ms & b & L & A & B & C & D & E). exists x, ms, b, L. repeat split; auto. eapply scoped_keeps; eauto.
Qed.
Lemma obj_keeps W W' fs fs' o1 o2 : (forall i x, nth_error W i = Some x -> nth_error W' i = Some x) -> keeps fs fs' ->
  obj_sim M W fs o1 o2 -> obj_sim M W' fs' o1 o2.
Proof.
  intros HW HK. destruct o1, o2; cbn; auto. intros (A & B & C). repeat split; auto. eapply blk_keeps; eauto.
Qed.
(** No activation for [F] has these declarations yet. *)
Definition fresh (W : list wf) (F : nat) (ids : list nat) : Prop :=
  forall x d, In x W -> w_to x = F -> In d ids -> ~ In d (w_ids x).
Lemma fresh_grows F a b W s1 s2 W' t1 t2 : grows F a W s1 s2 W' t1 t2 -> F < length (v_frames s1) ->
  fresh W F b -> (forall d, In d a -> In d b -> False) -> fresh W' F b.
Proof.
  intros ((n & -> & A) & _) HF Hf Hd x d Hx Ex Hb Hi. apply in_app_or in Hx as [Hx|Hx]; [eapply Hf; eauto|].
  rewrite Forall_forall in A. destruct (A x Hx) as [[_ I]|E]; [|lia]. eapply Hd; eauto.
Qed.
Lemma fresh_incl W F a b : incl a b -> fresh W F b -> fresh W F a.
Proof. intros H Hf x d Hx Ex Hd. apply (Hf x d); auto. Qed.

(** * Changes *)
Lemma keeps_set fs i f f' : nth_error fs i = Some f -> f_meth f' = f_meth f -> f_outer f' = f_outer f -> keeps fs (set_at fs i f').
Proof.
  intros Hf Em Eo j g Hg. rewrite nth_set_at. destruct (Nat.eqb_spec j i) as [-> |]; [|eauto]. rewrite Hg.
  rewrite Hg in Hf. injection Hf. intros <-. eauto.
Qed.
Lemma sim_new W s1 s2 o1 o2 : sim W s1 s2 -> obj_sim M W (v_frames s2) o1 o2 ->
  sim W (set_store (Store (s_objs (v_store s1) ++ [o1]) (s_globs (v_store s1)) (s_out (v_store s1))) s1)
        (set_store (Store (s_objs (v_store s2) ++ [o2]) (s_globs (v_store s2)) (s_out (v_store s2))) s2).
Proof.
  intros [] Ho. constructor; cbn; auto. apply Forall2_app; auto.
Qed.
Lemma sim_frames W s1 s2 fs1 fs2 : sim W s1 s2 -> keeps (v_frames s2) fs2 -> length fs1 = length (v_frames s1) -> length fs2 = length (v_frames s2) ->
  (forall i x f1 f2, nth_error W i = Some x -> nth_error (v_frames s1) (w_to x) = Some f1 -> nth_error (v_frames s2) i = Some f2 ->
     frame_sim W i x f1 f2 -> exists g1 g2, nth_error fs1 (w_to x) = Some g1 /\ nth_error fs2 i = Some g2 /\ frame_sim W i x g1 g2) ->
  (forall F f1 d, nth_error fs1 F = Some f1 ->
    (forall i x, nth_error W i = Some x -> w_to x = F -> ~ In d (w_ids x)) -> assoc_loc d (f_locs f1) = VNil) ->
  sim W (Vm (v_store s1) fs1) (Vm (v_store s2) fs2).
Proof.
  intros [] HK L1 L2 HF HN. constructor; cbn; auto; try congruence.
  - eapply Forall2_imp; [|exact m_objs0]. intros a b. apply obj_keeps; auto.
  - intros i x Hx. destruct (m_frames0 i x Hx) as (f1 & f2 & A & B & C). eauto.
Qed.
(** Assigning a local. *)
Lemma sim_loc W s1 s2 i x f1 f2 d v : sim W s1 s2 -> nth_error W i = Some x -> In d (w_ids x) ->
  nth_error (v_frames s1) (w_to x) = Some f1 -> nth_error (v_frames s2) i = Some f2 ->
  sim W (set_frame (w_to x) (Frame (f_meth f1) (f_args f1) ((d, v) :: f_locs f1) (f_outer f1) (f_live f1)) s1)
        (set_frame i (Frame (f_meth f2) (f_args f2) ((d, v) :: f_locs f2) (f_outer f2) (f_live f2)) s2).
Proof.
  intros H Hx Hd H1 H2. unfold set_frame. apply sim_frames; auto using set_at_length.
  - eapply keeps_set; eauto.
  - intros j y g1 g2 Hy G1 G2 FS. rewrite !nth_set_at, G1, G2.
    destruct (Nat.eqb_spec j i) as [-> |Hj].
    + rewrite Hx in Hy. injection Hy. intros <-. rewrite Nat.eqb_refl. eexists; eexists; split; [reflexivity|split; [reflexivity|]].
      rewrite H1 in G1. rewrite H2 in G2. injection G1. injection G2. intros <- <-. destruct FS as (A & B & C). split; [exact A|split; [|exact C]].
      intros e He. cbn. destruct (e =? d); auto.
    + destruct (Nat.eqb_spec (w_to y) (w_to x)) as [E|E].
      * eexists; eexists; split; [reflexivity|split; [reflexivity|]]. rewrite E, H1 in G1. injection G1. intros <-.
        destruct FS as (A & B & C). split; [exact A|split; [|exact C]]. intros e He. cbn.
        destruct (Nat.eqb_spec e d) as [-> |]; auto. exfalso. apply Hj. eapply (m_ids _ _ _ _ H); eauto.
      * exists g1, g2. auto.
  - intros F g1 e. rewrite nth_set_at. destruct (Nat.eqb_spec F (w_to x)) as [-> |]; [|apply (m_nil _ _ _ _ H)].
    rewrite H1. intros E Hn. injection E. intros <-. cbn.
    destruct (Nat.eqb_spec e d) as [-> |]; [exfalso; eapply Hn; eauto|]. eapply (m_nil _ _ _ _ H); eauto.
Qed.
(** Assigning an argument. *)
Lemma sim_arg W s1 s2 i x f1 f2 a v : sim W s1 s2 -> nth_error W i = Some x -> w_own x = true ->
  nth_error (v_frames s1) (w_to x) = Some f1 -> nth_error (v_frames s2) i = Some f2 ->
  sim W (set_frame (w_to x) (Frame (f_meth f1) (set_at (f_args f1) a v) (f_locs f1) (f_outer f1) (f_live f1)) s1)
        (set_frame i (Frame (f_meth f2) (set_at (f_args f2) a v) (f_locs f2) (f_outer f2) (f_live f2)) s2).
Proof.
  intros H Hx Ho H1 H2. unfold set_frame. apply sim_frames; auto using set_at_length.
  - eapply keeps_set; eauto.
  - intros j y g1 g2 Hy G1 G2 FS. rewrite !nth_set_at, G1, G2.
    destruct (Nat.eqb_spec j i) as [-> |Hj].
    + rewrite Hx in Hy. injection Hy. intros <-. rewrite Nat.eqb_refl. eexists; eexists; split; [reflexivity|split; [reflexivity|]].
      rewrite H1 in G1. rewrite H2 in G2. injection G1. injection G2. intros <- <-. destruct FS as (A & B & C). split; [exact A|split; [exact B|]].
      rewrite Ho in *. cbn. destruct C as [-> C]. split; auto. destruct (f_outer f2); auto. destruct C as (C & C'). split; auto.
      intros E. apply C. apply length_zero_iff_nil. apply (f_equal (@length value)) in E. rewrite set_at_length in E. exact E.
    + destruct (Nat.eqb_spec (w_to y) (w_to x)) as [E|E].
      * eexists; eexists; split; [reflexivity|split; [reflexivity|]]. rewrite E, H1 in G1. injection G1. intros <-.
        destruct FS as (A & B & C). split; [exact A|split; [exact B|]]. destruct (w_own y) eqn:Ey; [|exact C].
        exfalso. apply Hj. eapply (m_own _ _ _ _ H); eauto.
      * exists g1, g2. auto.
  - intros F g1 e. rewrite nth_set_at. destruct (Nat.eqb_spec F (w_to x)) as [-> |]; [|apply (m_nil _ _ _ _ H)].
    rewrite H1. intros E Hn. injection E. intros <-. cbn. eapply (m_nil _ _ _ _ H); eauto.
Qed.
(** A new activation in both. *)
Lemma nth_last {A} (l : list A) x : nth_error (l ++ [x]) (length l) = Some x.
Proof. rewrite nth_error_app2, Nat.sub_diag by lia. reflexivity. Qed.
Lemma nth_app {A} (l : list A) x i y : nth_error (l ++ [x]) i = Some y -> (i < length l /\ nth_error l i = Some y) \/ (i = length l /\ y = x).
Proof.
  intros H. destruct (Nat.lt_ge_cases i (length l)).
  - rewrite nth_error_app1 in H by auto. auto.
  - rewrite nth_error_app2 in H by auto. right. destruct (i - length l) as [|[|]] eqn:E; cbn in H; try discriminate.
    split; [lia|congruence].
Qed.
Lemma frame_ext W y i x f1 f2 : frame_sim W i x f1 f2 -> frame_sim (W ++ [y]) i x f1 f2.
Proof.
  assert (Q : forall o z, nth_error W o = Some z -> nth_error (W ++ [y]) o = Some z).
  { intros o z Hz. rewrite nth_error_app1; auto. apply nth_error_Some. congruence. }
  intros (A & B & C). split; [|split]; auto. destruct (w_own x).
  - destruct C as [C C']. split; auto. destruct (f_outer f2); auto. destruct C' as (C1 & C2 & z & Hz & C3). repeat split; auto. exists z; auto.
  - destruct C as (C & o & z & C1 & C2 & Hz & C3). split; auto. exists o, z; auto.
Qed.
Lemma sim_push W s1 s2 m args o1 o2 ids : sim W s1 s2 ->
  match o1, o2 with
  | None, None => True
  | Some o1, Some o2 => args <> [] /\ exists y, nth_error W o2 = Some y /\ w_to y = o1
  | _, _ => False
  end ->
  sim (W ++ [Wf (length (v_frames s1)) ids true]) (push_frame m args o1 s1) (push_frame m args o2 s2).
Proof.
  intros H Ho. pose proof (m_len _ _ _ _ H) as Hl. pose proof H as H0. destruct H0.
  assert (Q : forall i x, nth_error W i = Some x -> nth_error (W ++ [Wf (length (v_frames s1)) ids true]) i = Some x).
  { intros o z Hz. rewrite nth_error_app1; auto. apply nth_error_Some. congruence. }
  constructor; cbn [push_frame v_store v_frames]; auto.
  - rewrite !app_length. cbn. lia.
  - rewrite !app_length. cbn. lia.
  - eapply Forall2_imp; [|exact m_objs0]. intros a b. apply obj_keeps; auto. apply keeps_app.
  - intros i x Hx. apply nth_app in Hx as [[Hi Hx]|[-> ->]].
    + destruct (m_frames0 i x Hx) as (f1 & f2 & A & B & C). exists f1, f2.
      rewrite !nth_error_app1 by (apply nth_error_Some; congruence). split; [exact A|split; [exact B|apply frame_ext; exact C]].
    + rewrite Hl. cbn [w_to]. rewrite !nth_last. eexists; eexists; split; [reflexivity|split; [reflexivity|]].
      split; [reflexivity|split; [reflexivity|]]. cbn. split; auto. destruct o1 as [o1|], o2 as [o2|]; try contradiction; auto.
      destruct Ho as (Hn & y & Hy & <-). destruct (sim_lt _ _ _ _ _ H Hy). repeat split; auto. exists y. repeat split; auto.
  - intros i j x y Hx Hy Ox Oy E. apply nth_app in Hx as [[Hi Hx]|[-> ->]], Hy as [[Hj Hy]|[-> ->]]; auto.
    + eapply m_own0; eauto.
    + destruct (sim_lt _ _ _ _ _ H Hx). cbn in E. lia.
    + destruct (sim_lt _ _ _ _ _ H Hy). cbn in E. lia.
  - intros i j x y d Hx Hy E Dx Dy. apply nth_app in Hx as [[Hi Hx]|[-> ->]], Hy as [[Hj Hy]|[-> ->]]; auto.
    + eapply m_ids0; eauto.
    + destruct (sim_lt _ _ _ _ _ H Hx). cbn in E. lia.
    + destruct (sim_lt _ _ _ _ _ H Hy). cbn in E. lia.
  - intros F f1 d Hf Hn. apply nth_app in Hf as [[Hi Hf]|[-> ->]]; auto.
    eapply m_nil0; eauto.
Qed.
(** An activation for a block of a control structure. *)
Lemma sim_inner W s1 s2 m i x ids : sim W s1 s2 -> nth_error W i = Some x -> fresh W (w_to x) ids -> 
  (exists f2, nth_error (v_frames s2) i = Some f2 /\ f_meth f2 = m) ->
  sim (W ++ [Wf (w_to x) ids false]) s1 (push_frame m [] (Some i) s2).
Proof.
  intros H Hx Hf (f & Ef & Em). pose proof (m_len _ _ _ _ H) as Hl. pose proof H as H0. destruct H0.
  assert (Q : forall i y, nth_error W i = Some y -> nth_error (W ++ [Wf (w_to x) ids false]) i = Some y).
  { intros o z Hz. rewrite nth_error_app1; auto. apply nth_error_Some. congruence. }
  constructor; cbn [push_frame v_store v_frames]; auto.
  - rewrite !app_length. cbn. lia.
  - rewrite !app_length. cbn. lia.
  - eapply Forall2_imp; [|exact m_objs0]. intros a b. apply obj_keeps; auto. apply keeps_app.
  - intros j y Hy. apply nth_app in Hy as [[Hj Hy]|[-> ->]].
    + destruct (m_frames0 j y Hy) as (f1 & f2 & A & B & C). exists f1, f2. split; [exact A|].
      rewrite nth_error_app1 by (apply nth_error_Some; congruence). split; auto. apply frame_ext; auto.
    + rewrite Hl. cbn [w_to]. rewrite nth_last. destruct (m_frames0 i x Hx) as (f1 & f2 & A & B & C).
      exists f1. eexists; split; [exact A|split; [reflexivity|]]. destruct C as (C1 & C2 & C3).
      rewrite Ef in B. injection B. intros <-. split; [cbn; congruence|split].
      * cbn [w_ids f_locs]. intros d Hd. cbn. eapply m_nil0; eauto. intros j y Hy Ey. apply (Hf y d); eauto using nth_error_In.
      * cbn. split; auto. exists i, x. destruct (sim_lt _ _ _ _ _ H Hx). auto.
  - intros k j y z Hy Hz Oy Oz E. apply nth_app in Hy as [[Hk Hy]|[-> ->]], Hz as [[Hj Hz]|[-> ->]]; auto; try discriminate.
    eapply m_own0; eauto.
  - intros k j y z d Hy Hz E Dy Dz. apply nth_app in Hy as [[Hk Hy]|[-> ->]], Hz as [[Hj Hz]|[-> ->]]; auto.
    + eapply m_ids0; eauto.
    + exfalso. cbn in *. apply (Hf y d); eauto using nth_error_In.
    + exfalso. cbn in *. apply (Hf z d); eauto using nth_error_In.
  - intros F f1 d Hf1 Hn. eapply m_nil0; eauto.
Qed.
End Lemmas.
