(** Control structures in place and as messages: the runs correspond. *)
From Coq Require Import ZArith Bool String Ascii List Lia.
From Verif Require Import Base LexModel ParseModel BcModel BcInterp BcSpec BcTab BcCode BcEval BcLex VmModel VmSpec VmRel VmInv CtlModel CtlSpec CtlSim.
Import ListNotations.
Open Scope nat_scope.
Open Scope list_scope.

(** * Outcomes *)
(** The same kind of outcome and the same value; a return from a method is an exception when it
    comes from the activation of a block.  Nothing is said when the run with messages is
    stuck. *)
Inductive R {A} (home : option nat) (Q : list wf -> vm -> vm -> Prop) : vout A -> vout A -> Prop :=
| R_stuck o : R home Q o Stuck
| R_hang : R home Q Hang Hang
| R_done a W t1 t2 : Q W t1 t2 -> R home Q (Done a t1) (Done a t2)
| R_retn v W t1 t2 : Q W t1 t2 -> R home Q (Retn v t1) (Retn v t2)
| R_back v W t1 t2 h x : Q W t1 t2 -> nth_error W h = Some x -> w_own x = true -> home = Some (w_to x) ->
    R home Q (Retn v t1) (Abrupt (XRet h v) t2)
| R_ret v W t1 t2 h x : Q W t1 t2 -> nth_error W h = Some x -> w_own x = true ->
    R home Q (Abrupt (XRet (w_to x) v) t1) (Abrupt (XRet h v) t2)
| R_py e W t1 t2 : Q W t1 t2 -> R home Q (Abrupt (XPy e) t1) (Abrupt (XPy e) t2).
Lemma R_imp {A} h h' (Q Q' : list wf -> vm -> vm -> Prop) (o1 o2 : vout A) :
  (forall x, h = Some x -> h' = Some x) -> (forall W t1 t2, Q W t1 t2 -> Q' W t1 t2) -> R h Q o1 o2 -> R h' Q' o1 o2.
Proof.
  intros Hh HQ H. destruct H; try (econstructor; eauto; fail).
Qed.
Lemma R_bind {A B} h (Q Q' : list wf -> vm -> vm -> Prop) (o1 o2 : vout A) (f g : A -> vm -> vout B) :
  R h Q o1 o2 -> (forall W t1 t2, Q W t1 t2 -> Q' W t1 t2) ->
  (forall a W t1 t2, Q W t1 t2 -> R h Q' (f a t1) (g a t2)) -> R h Q' (bind o1 f) (bind o2 g).
Proof.
  intros H HQ Hf. destruct H; cbn [bind]; try (econstructor; eauto; fail). eapply Hf; eauto.
Qed.

Section Run.
Variable P : prog.
Variable M : nat -> option msrc.
Hypothesis Hblind : blind_prog P.
Hypothesis Hhonest : honest_prog P.
Notation sim := (sim M).
Definition now (F : nat) (ids : list nat) (W : list wf) (s1 s2 : vm) (W' : list wf) (t1 t2 : vm) : Prop :=
  grows F ids W s1 s2 W' t1 t2 /\ sim W' t1 t2.
Definition called (W : list wf) (s1 s2 : vm) (W' : list wf) (t1 t2 : vm) : Prop :=
  forall F, now F [] W s1 s2 W' t1 t2.
Lemma called_refl W s1 s2 : sim W s1 s2 -> called W s1 s2 W s1 s2.
Proof. intros H F. split; auto. apply grows_refl. Qed.
Lemma called_trans W s1 s2 W' t1 t2 W'' u1 u2 : called W s1 s2 W' t1 t2 -> called W' t1 t2 W'' u1 u2 -> called W s1 s2 W'' u1 u2.
Proof. intros H1 H2 F. destruct (H1 F) as [G1 _], (H2 F) as [G2 S2]. split; auto. exact (grows_trans _ _ _ _ _ _ _ _ _ _ _ _ G1 G2). Qed.
Definition C {A} (W : list wf) (s1 s2 : vm) : vout A -> vout A -> Prop := R None (called W s1 s2).
Lemma C_bind {A B} W s1 s2 (o1 o2 : vout A) (f g : A -> vm -> vout B) :
  C W s1 s2 o1 o2 -> (forall a W' t1 t2, called W s1 s2 W' t1 t2 -> C W' t1 t2 (f a t1) (g a t2)) ->
  C W s1 s2 (bind o1 f) (bind o2 g).
Proof.
  intros H Hf. eapply R_bind; [exact H|auto|]. intros a W' t1 t2 Hc. eapply R_imp; [|intros W'' u1 u2; eapply called_trans; exact Hc|apply Hf; exact Hc]. auto.
Qed.
Lemma C_store {A} W s1 s2 st1 st2 (o1 o2 : vout A) : C W (set_store st1 s1) (set_store st2 s2) o1 o2 -> C W s1 s2 o1 o2.
Proof. intros H. exact H. Qed.
Definition stk_sim (W : list wf) (stk1 stk2 : list nat) : Prop :=
  Forall2 (fun i1 i2 => exists x, nth_error W i2 = Some x /\ w_to x = i1 /\ w_own x = true) stk1 stk2.
Lemma stk_called W s1 s2 W' t1 t2 stk1 stk2 F ids : now F ids W s1 s2 W' t1 t2 -> stk_sim W stk1 stk2 -> stk_sim W' stk1 stk2.
Proof.
  intros [G _] H. eapply Forall2_imp; [|exact H]. intros a b (x & Hx & E). exists x. split; auto. eapply grows_nth; eauto.
Qed.
Lemma stk_c W s1 s2 W' t1 t2 stk1 stk2 : called W s1 s2 W' t1 t2 -> stk_sim W stk1 stk2 -> stk_sim W' stk1 stk2.
Proof. intros H. exact (stk_called _ _ _ _ _ _ _ _ _ _ (H 0)). Qed.
Lemma stk_in W s1 s2 stk1 stk2 h x : sim W s1 s2 -> stk_sim W stk1 stk2 -> nth_error W h = Some x -> w_own x = true ->
  existsb (Nat.eqb h) stk2 = existsb (Nat.eqb (w_to x)) stk1.
Proof.
  intros H K Hx Ox. induction K as [|i1 i2 l1 l2 (y & Hy & Ey & Oy) K IH]; cbn; auto. rewrite IH. f_equal.
  destruct (Nat.eqb_spec h i2) as [-> |Hn].
  - rewrite Hx in Hy. injection Hy. intros <-. rewrite Ey. symmetry. apply Nat.eqb_refl.
  - symmetry. apply Nat.eqb_neq. intros E. apply Hn. eapply (m_own _ _ _ _ H); eauto. congruence.
Qed.

(** * Messages, blocks and primitives *)
Section Ops.
Variables call1 call2 : callee -> list value -> vm -> vout value.
Variables enter1 enter2 : nat -> nat -> nat -> list value -> vm -> vout value.
Variables stk1 stk2 : list nat.
Hypothesis Hcall : forall c args W s1 s2, sim W s1 s2 -> stk_sim W stk1 stk2 -> C W s1 s2 (call1 c args s1) (call2 c args s2).

Lemma send_sim sel args W s1 s2 : sim W s1 s2 -> stk_sim W stk1 stk2 ->
  C W s1 s2 (vm_send P call1 sel args s1) (vm_send P call2 sel args s2).
Proof.
  intros H K. unfold vm_send. destruct args as [|r args]; [constructor|]. destruct Hblind as (B1 & _ & B3 & _).
  pose proof (sim_alike _ _ _ _ H) as Ha. rewrite (B1 sel r _ _ Ha). destruct (p_find P sel r (v_store s2)); auto.
  destruct (B3 sel (r :: args) _ _ Ha) as [E1 E2].
  pose proof (proj2 Hhonest sel (r :: args) (v_store s1)) as N1. pose proof (proj2 Hhonest sel (r :: args) (v_store s2)) as N2.
  destruct (p_dnu P sel (r :: args) (v_store s1)) as [a1 st1], (p_dnu P sel (r :: args) (v_store s2)) as [a2 st2]. cbn [fst snd] in *. subst a2.
  assert (H' : sim W (set_store st1 s1) (set_store st2 s2)) by (apply sim_store; auto).
  rewrite (B1 t_dnu r _ _ E2). destruct (p_find P t_dnu r st2).
  - eapply C_store. apply Hcall; auto.
  - eapply C_store. eapply R_py, called_refl. exact H'.
Qed.
Lemma send2_sim sel r a W s1 s2 : sim W s1 s2 -> stk_sim W stk1 stk2 ->
  C W s1 s2 (vm_send2 P call1 sel r a s1) (vm_send2 P call2 sel r a s2).
Proof.
  intros H K. unfold vm_send2. destruct Hblind as (B1 & _). rewrite (B1 sel r _ _ (sim_alike _ _ _ _ H)).
  destruct (p_find P sel r (v_store s2)); auto. eapply R_py, called_refl; eauto.
Qed.
Lemma super_sim m sel args W s1 s2 : sim W s1 s2 -> stk_sim W stk1 stk2 ->
  C W s1 s2 (vm_super P call1 m sel args s1) (vm_super P call2 m sel args s2).
Proof.
  intros H K. unfold vm_super. destruct Hblind as (_ & B2 & _). rewrite (B2 m sel _ _ (sim_alike _ _ _ _ H)).
  destruct (p_super P m sel (v_store s2)); auto. eapply R_py, called_refl; eauto.
Qed.
Lemma res_sim r W s1 s2 : sim W s1 s2 -> C W s1 s2 (of_res r s1) (of_res r s2).
Proof. intros H. destruct r; cbn; [eapply R_done|eapply R_py]; apply called_refl; auto. Qed.
Lemma glob_sim n W s1 s2 i x : sim W s1 s2 -> stk_sim W stk1 stk2 -> nth_error W i = Some x ->
  C W s1 s2 (vm_glob P call1 (w_to x) n s1) (msg_glob P call2 i n s2).
Proof.
  intros H K Hx. unfold vm_glob, msg_glob. rewrite (m_globs _ _ _ _ H).
  destruct (assoc_glob n (s_globs (v_store s2))); [eapply R_done; apply called_refl; auto|].
  rewrite (self_at_sim _ _ _ _ _ _ H Hx). destruct (self_dynamically s1 (w_to x)); [|constructor]. apply send2_sim; auto.
Qed.
Lemma return_sim v W s1 s2 i x : sim W s1 s2 -> stk_sim W stk1 stk2 -> nth_error W i = Some x -> w_own x = true ->
  C W s1 s2 (do_return P call1 stk1 (w_to x) v s1) (msg_return P call2 stk2 i v s2).
Proof.
  intros H K Hx Ox. unfold do_return, msg_return. destruct (home_of_sim _ _ _ _ _ _ H Hx) as (y & Hy & Ey & Oy).
  rewrite <- Ey. rewrite (stk_in _ _ _ _ _ _ _ H K Hy Oy). destruct (existsb (Nat.eqb (w_to y)) stk1).
  - eapply R_ret; eauto. apply called_refl; auto.
  - rewrite (own_sim _ _ _ _ _ _ H Hy Oy), (own_sim _ _ _ _ _ _ H Hx Ox).
    destruct (receiver (v_frames s1) (w_to y)); [|constructor]. destruct (receiver (v_frames s1) (w_to x)); [|constructor].
    rewrite (self_full _ _ _ _ _ H). destruct (self_of _ _ _ _); [|constructor]. apply send2_sim; auto.
Qed.
Hypothesis Henter : forall m l c1 c2 args W s1 s2, sim W s1 s2 -> stk_sim W stk1 stk2 -> args <> [] ->
  blk_sim M W (v_frames s2) m l c1 c2 -> C W s1 s2 (enter1 m l c1 args s1) (enter2 m l c2 args s2).
Lemma value_sim b args W s1 s2 : sim W s1 s2 -> stk_sim W stk1 stk2 ->
  C W s1 s2 (vm_value enter1 b args s1) (vm_value enter2 b args s2).
Proof.
  intros H K. unfold vm_value. pose proof (sim_block _ _ _ _ b H) as B.
  destruct (the_block (v_store s1) b) as [[[m l] c1]|], (the_block (v_store s2) b) as [[[m' l'] c2]|]; try contradiction.
  - destruct B as (<- & <- & B). apply Henter; auto. discriminate.
  - eapply R_py, called_refl; eauto.
Qed.
Lemma while_sim c b on n : forall W s1 s2, sim W s1 s2 -> stk_sim W stk1 stk2 ->
  C W s1 s2 (vm_while enter1 n c b on s1) (vm_while enter2 n c b on s2).
Proof.
  induction n as [|n IH]; intros W s1 s2 H K; cbn [vm_while]; [constructor|].
  apply C_bind; [apply value_sim; auto|]. intros v W' t1 t2 Hc. destruct (Hc 0) as [_ H']. pose proof (stk_called _ _ _ _ _ _ _ _ _ _ (Hc 0) K) as K'.
  destruct (takes _ v); [|eapply R_done; apply called_refl; auto].
  apply C_bind; [apply value_sim; auto|]. intros v' W'' u1 u2 Hc'. destruct (Hc' 0) as [_ H'']. apply IH; auto. eapply stk_c; eauto.
Qed.
Lemma act_sim n a : honest a -> blind a -> forall W s1 s2, sim W s1 s2 -> stk_sim W stk1 stk2 ->
  C W s1 s2 (run_act P call1 enter1 n a s1) (run_act P call2 enter2 n a s2).
Proof.
  induction a as [v|e|f k IH|sel args k IH|c args k IH|b args k IH|c b on k IH]; intros Hh Hb W s1 s2 H K; cbn [run_act].
  - eapply R_done, called_refl; auto.
  - eapply R_py, called_refl; auto.
  - inversion Hh; inversion Hb; subst. destruct (H6 _ _ (sim_alike _ _ _ _ H)) as [Ha Ek]. rewrite Ek.
    eapply C_store. apply IH; auto. apply sim_store; auto.
  - inversion Hh; inversion Hb; subst. apply C_bind; [apply send_sim; auto|].
    intros v W' t1 t2 Hc. destruct (Hc 0) as [_ H']. apply IH; auto. eapply stk_c; eauto.
  - inversion Hh; inversion Hb; subst. apply C_bind; [apply Hcall; auto|].
    intros v W' t1 t2 Hc. destruct (Hc 0) as [_ H']. apply IH; auto. eapply stk_c; eauto.
  - inversion Hh; inversion Hb; subst. apply C_bind; [apply value_sim; auto|].
    intros v W' t1 t2 Hc. destruct (Hc 0) as [_ H']. apply IH; auto. eapply stk_c; eauto.
  - inversion Hh; inversion Hb; subst. pose proof (sim_block _ _ _ _ b H) as B1. pose proof (sim_block _ _ _ _ c H) as B2.
    destruct (the_block (v_store s1) b) as [[[m l] c1]|], (the_block (v_store s2) b) as [[[m' l'] c2]|]; try contradiction;
      [|eapply R_py, called_refl; auto].
    destruct (the_block (v_store s1) c) as [[[m1 l1] c1']|], (the_block (v_store s2) c) as [[[m1' l1'] c2']|]; try contradiction;
      [|eapply R_py, called_refl; auto].
    apply C_bind; [apply while_sim; auto|].
    intros v W' t1 t2 Hc. destruct (Hc 0) as [_ H']. apply IH; auto. eapply stk_c; eauto.
Qed.
End Ops.

(** * Expressions in one activation *)
Section Here.
Variable fields : list text.
Variables call1 call2 : callee -> list value -> vm -> vout value.
Variables stk1 stk2 : list nat.
Hypothesis Hcall : forall c args W s1 s2, sim W s1 s2 -> stk_sim W stk1 stk2 -> C W s1 s2 (call1 c args s1) (call2 c args s2).
(** The activation of a method with sources [ms] when control structures are in place. *)
Variables m F : nat.
Variable ms : msrc.
Hypothesis Hms : M m = Some ms.
Hypothesis Hlabels : NoDup (map (fun p => label_of (fst p)) (lex_of ms)).
Notation mu1 := (vm_machine P call1 (fun fid _ v s => do_return P call1 stk1 fid v s) m F).
Notation mk := (msg_machine P call2 stk2 m).
Notation back := (msg_back stk2).
Notation eval := (eval fields).
Notation meval := (meval fields m mk back).
Notation meval_block := (meval_block fields m mk back).

Definition at_ (L : lexenv) (i : nat) (W : list wf) (s1 s2 : vm) : Prop :=
  sim W s1 s2 /\ stk_sim W stk1 stk2 /\ scoped W (v_frames s2) m L i /\
  exists x, nth_error W i = Some x /\ w_to x = F.
Lemma at_grows L i ids W s1 s2 W' t1 t2 : at_ L i W s1 s2 -> now F ids W s1 s2 W' t1 t2 -> at_ L i W' t1 t2.
Proof.
  intros (H & K & Hs & x & Hx & Ex) [G H']. split; [auto|split; [eapply stk_called; eauto; split; eauto|split]].
  - eapply scoped_keeps; [|apply G|exact Hs]. intros. eapply grows_nth; eauto.
  - exists x. split; auto. eapply grows_nth; eauto.
Qed.
Lemma at_lt L i W s1 s2 : at_ L i W s1 s2 -> F < length (v_frames s1).
Proof. intros (H & K & Hs & x & Hx & Ex). subst F. eapply sim_lt; eauto. Qed.
Definition E {A} (ids : list nat) (W : list wf) (s1 s2 : vm) : vout A -> vout A -> Prop := R (Some F) (now F ids W s1 s2).
Lemma E_call {A} ids W s1 s2 (o1 o2 : vout A) : C W s1 s2 o1 o2 -> E ids W s1 s2 o1 o2.
Proof.
  intros H. eapply R_imp; [| |exact H]; [discriminate|]. intros W' t1 t2 Hc. destruct (Hc F) as [G S]. split; auto.
  eapply grows_incl; [|exact G]. intros ? [].
Qed.
Lemma E_done {A} (a : A) ids W s1 s2 : sim W s1 s2 -> E ids W s1 s2 (Done a s1) (Done a s2).
Proof. intros H. eapply R_done. split; eauto. apply grows_refl. Qed.
Lemma E_incl {A} a b W s1 s2 (o1 o2 : vout A) : incl a b -> E a W s1 s2 o1 o2 -> E b W s1 s2 o1 o2.
Proof.
  intros Hi H. eapply R_imp; [| |exact H]; auto. intros W' t1 t2 [G S]. split; auto. eapply grows_incl; eauto.
Qed.
Lemma E_bind {A B} a b W s1 s2 (o1 o2 : vout A) (f g : A -> vm -> vout B) :
  E a W s1 s2 o1 o2 -> (forall v W' t1 t2, now F a W s1 s2 W' t1 t2 -> E b W' t1 t2 (f v t1) (g v t2)) ->
  E (a ++ b) W s1 s2 (bind o1 f) (bind o2 g).
Proof.
  intros H Hf. eapply R_bind; [exact H| |].
  - intros W' t1 t2 [G S]. split; auto. eapply grows_incl; [|exact G]. apply incl_appl, incl_refl.
  - intros v W' t1 t2 N. eapply R_imp; [| |apply (Hf v W' t1 t2 N)]; auto.
    intros W'' u1 u2 [G S]. split; auto. eapply grows_trans; [apply N|exact G].
Qed.
Lemma E_bind0 {A B} a W s1 s2 (o1 o2 : vout A) (f g : A -> vm -> vout B) :
  E a W s1 s2 o1 o2 -> (forall v W' t1 t2, now F a W s1 s2 W' t1 t2 -> E [] W' t1 t2 (f v t1) (g v t2)) ->
  E a W s1 s2 (bind o1 f) (bind o2 g).
Proof. intros H Hf. rewrite <- (app_nil_r a). eapply E_bind; eauto. Qed.

(** Variables. *)
Lemma resolve_nth n : forall rho k v, resolve n rho = Some (k, v) -> exists l, nth_error rho k = Some l /\ in_level n l = Some v.
Proof.
  induction rho as [|l rho IH]; intros k v H; [discriminate|]. cbn [resolve] in H.
  destruct (in_level n l) eqn:El; [injection H; intros <- <-; exists l; auto|].
  destruct (resolve n rho) as [[k' v']|]; [|discriminate]. cbn in H. injection H. intros <- <-.
  destruct (IH k' v' eq_refl) as (l' & A & B). exists l'. auto.
Qed.
Lemma lex_inlined : forall L k own l, lex_ok L -> nth_error L k = Some (own, l) -> own = false -> lv_args l = [t_block_self].
Proof.
  induction L as [|[o l0] L IH]; intros k own l HL Hk Ho; [destruct k; discriminate|]. destruct L as [|q L].
  - destruct k as [|[|]]; cbn in Hk; try discriminate. injection Hk. intros; subst. cbn in HL. discriminate.
  - destruct HL as [Ha HL]. destruct k as [|k]; [injection Hk; intros; subst; auto|]. eapply IH; eauto.
Qed.
Lemma in_layers_ids n d : forall ls, in_layers n ls = Some d -> In d (flat_map (map snd) ls).
Proof.
  induction ls as [|l ls IH]; intros H; [discriminate|]. cbn [in_layers flat_map] in *. apply in_or_app.
  destruct (in_layer n l) eqn:El; [left|right; auto]. injection H. intros ->. clear - El.
  induction l as [|[x e] l IH]; [discriminate|]. cbn [in_layer] in El. destruct (text_eqb n x); [left; cbn; congruence|right; auto].
Qed.
Lemma level_case n (p : bool * level) v : name_ok n = true -> (fst p = false -> lv_args (snd p) = [t_block_self]) ->
  in_level n (snd p) = Some v ->
  match v with VLoc d => In d (flat_map (map snd) (lv_layers (snd p))) | VArg _ => fst p = true end.
Proof.
  intros Hn Ha H. unfold in_level in H. destruct (in_layers n (lv_layers (snd p))) eqn:El.
  - injection H. intros <-. apply in_layers_ids in El. auto.
  - destruct (position n (lv_args (snd p))) eqn:Ep; [|discriminate]. injection H. intros <-. destruct (fst p); auto.
    rewrite Ha in Ep by auto. cbn [position] in Ep. rewrite (name_ok_neq _ Hn) in Ep. discriminate.
Qed.
Lemma rd_sim L i W s1 s2 n k v : lex_ok L -> at_ L i W s1 s2 -> name_ok n = true -> resolve n (map snd L) = Some (k, v) ->
  E [] W s1 s2 (vm_rd F (activation_of k L) v s1) (vm_rd i k v s2).
Proof.
  intros HL (H & K & Hs & x & Hx & Ex) Hn Hr. apply resolve_nth in Hr as (l & Hl & Hv). rewrite nth_error_map in Hl.
  destruct (nth_error L k) as [p|] eqn:Hp; [|discriminate]. cbn in Hl. injection Hl. intros <-.
  destruct (scoped_up _ _ _ _ _ H L HL i x Hs Hx k p Hp) as (j & y & U2 & Hy & U1 & Oy & Iy & _).
  destruct (m_frames _ _ _ _ H j y Hy) as (f1 & f2 & F1 & F2 & _ & FL & FS).
  unfold vm_rd, at_level. rewrite Ex in U1. rewrite U1, U2, F1, F2.
  assert (Hc := level_case n p v Hn). specialize (Hc ltac:(destruct p; intros; eapply lex_inlined; eauto) Hv).
  destruct v as [d|a].
  - rewrite FL by auto. apply E_done; auto.
  - rewrite Oy, Hc in FS. destruct FS as [-> _]. destruct (nth_error (f_args f2) a); [apply E_done; auto|].
    eapply R_py. split; eauto. apply grows_refl.
Qed.
Lemma wr_sim L i W s1 s2 n k v w : lex_ok L -> at_ L i W s1 s2 -> name_ok n = true -> resolve n (map snd L) = Some (k, v) ->
  E [] W s1 s2 (vm_wr F (activation_of k L) v w s1) (vm_wr i k v w s2).
Proof.
  intros HL (H & K & Hs & x & Hx & Ex) Hn Hr. apply resolve_nth in Hr as (l & Hl & Hv). rewrite nth_error_map in Hl.
  destruct (nth_error L k) as [p|] eqn:Hp; [|discriminate]. cbn in Hl. injection Hl. intros <-.
  destruct (scoped_up _ _ _ _ _ H L HL i x Hs Hx k p Hp) as (j & y & U2 & Hy & U1 & Oy & Iy & _).
  destruct (m_frames _ _ _ _ H j y Hy) as (f1 & f2 & F1 & F2 & _ & FL & FS).
  unfold vm_wr, at_level. rewrite Ex in U1. rewrite U1, U2, F1, F2.
  assert (Hc := level_case n p v Hn). specialize (Hc ltac:(destruct p; intros; eapply lex_inlined; eauto) Hv).
  destruct v as [d|a].
  - eapply R_done. split; [|eapply sim_loc; eauto]. split; [exists []; rewrite app_nil_r; auto|].
    cbn. rewrite set_at_length. split; auto. eapply keeps_set; eauto.
  - rewrite Oy, Hc in FS. destruct FS as [Ea _]. rewrite Ea. destruct (a <? length (f_args f2)).
    + eapply R_done. split; [|rewrite <- Ea at 1; eapply sim_arg; eauto; congruence]. split; [exists []; rewrite app_nil_r; auto|].
      cbn. rewrite set_at_length. split; auto. eapply keeps_set; eauto.
    + eapply R_py. split; eauto. apply grows_refl.
Qed.
(** Fields. *)
Lemma lex_depth : forall L, lex_ok L -> length (activations L) = length (filter fst L) /\
  activation_of (length L - 1) L = length (activations L) - 1.
Proof.
  induction L as [|[own l] L IH]; [contradiction|]. intros HL. destruct L as [|q L].
  - cbn in HL. subst own. auto.
  - destruct HL as [_ HL]. specialize (IH HL). destruct IH as [A B]. remember (q :: L) as L'.
    assert (Hne : activations L' <> []) by (apply acts_ne; auto). assert (HL' : 0 < length L') by (subst L'; cbn; lia).
    unfold activation_of in *. replace (length ((own, l) :: L') - 1) with (S (length L' - 1)) by (cbn; lia). cbn [firstn filter fst].
    destruct own; cbn [activations length].
    + rewrite <- A. split; auto. rewrite B. destruct (activations L'); [congruence|]. cbn. lia.
    + destruct (activations L') as [|a r] eqn:Ea; [congruence|]. cbn [length] in *. split; [lia|]. rewrite B. lia.
Qed.
Lemma fields_sim {A} L i W s1 s2 (f1 f2 : nat -> nat -> list value -> vout A) : lex_ok L -> at_ L i W s1 s2 ->
  (forall a c fl, nth_error (s_objs (v_store s1)) a = Some (OInst c fl) -> nth_error (s_objs (v_store s2)) a = Some (OInst c fl) ->
     E [] W s1 s2 (f1 a c fl) (f2 a c fl)) ->
  E [] W s1 s2 (vm_fields F (depth (activations L)) s1 f1) (vm_fields i (depth (map snd L)) s2 f2).
Proof.
  intros HL (H & K & Hs & x & Hx & Ex) Hf. unfold vm_fields, at_level, depth. rewrite map_length.
  destruct (lex_depth L HL) as [_ D]. rewrite <- D.
  assert (Hk : exists p, nth_error L (length L - 1) = Some p /\ fst p = true).
  { clear - HL. induction L as [|[own l] L IH]; [contradiction|]. destruct L as [|q L]; [cbn in *; subst; eexists; split; eauto|].
    destruct HL as [_ HL]. destruct (IH HL) as (p & A & B). exists p. cbn [length] in *. split; auto.
    replace (S (S (length L)) - 1) with (S (S (length L) - 1)) by lia. exact A. }
  destruct Hk as (p & Hp & Op).
  destruct (scoped_up _ _ _ _ _ H L HL i x Hs Hx _ p Hp) as (j & y & U2 & Hy & U1 & Oy & _).
  destruct (m_frames _ _ _ _ H j y Hy) as (g1 & g2 & F1 & F2 & _ & _ & FS). rewrite Ex in U1. rewrite U1, U2, F1, F2.
  rewrite Oy, Op in FS. destruct FS as [-> _].
  assert (Py : forall e, E (A := A) [] W s1 s2 (raise e s1) (raise e s2)) by (intros; eapply R_py; split; eauto; apply grows_refl).
  destruct (nth_error (f_args g2) 0) as [[]|]; auto.
  pose proof (Forall2_nth _ _ _ (m_objs _ _ _ _ H) n) as Ho.
  destruct (nth_error (s_objs (v_store s1)) n) as [o1|] eqn:E1, (nth_error (s_objs (v_store s2)) n) as [o2|] eqn:E2; try contradiction; auto.
  destruct o1, o2; cbn in Ho; try discriminate; auto. injection Ho. intros <- <-. apply Hf; auto.
Qed.
Lemma getf_sim L i W s1 s2 x : lex_ok L -> at_ L i W s1 s2 ->
  E [] W s1 s2 (vm_getf F (depth (activations L)) x s1) (vm_getf i (depth (map snd L)) x s2).
Proof.
  intros HL Ha. apply fields_sim; auto. intros a c fl _ _. destruct Ha as (H & _).
  destruct (nth_error fl x); [apply E_done; auto|]. eapply R_py; split; eauto; apply grows_refl.
Qed.
Lemma same_blocks_inst st a c fl fl' : nth_error (s_objs st) a = Some (OInst c fl) ->
  same_blocks st (Store (set_at (s_objs st) a (OInst c fl')) (s_globs st) (s_out st)).
Proof.
  intros Ha b m' l o. cbn. rewrite nth_set_at. destruct (Nat.eqb_spec b a) as [-> |]; [|tauto]. rewrite Ha. split; discriminate.
Qed.
Lemma setf_sim L i W s1 s2 x v : lex_ok L -> at_ L i W s1 s2 ->
  E [] W s1 s2 (vm_setf F (depth (activations L)) x v s1) (vm_setf i (depth (map snd L)) x v s2).
Proof.
  intros HL Ha. apply fields_sim; auto. intros a c fl A1 A2. destruct Ha as (H & _).
  destruct (x <? length fl); [|eapply R_py; split; eauto; apply grows_refl].
  eapply R_done. split; [|apply sim_store; eauto using same_blocks_inst].
  - split; [exists []; rewrite app_nil_r; auto|]. cbn. split; [apply keeps_refl|auto].
  - pose proof (sim_alike _ _ _ _ H) as (G1 & G2 & G3). split; [auto|split; [auto|]]. cbn. apply nth_Forall2. intros b.
    rewrite !nth_set_at. pose proof (Forall2_nth _ _ _ G3 b) as Gb. destruct (b =? a); auto.
    destruct (nth_error (s_objs (v_store s1)) b), (nth_error (s_objs (v_store s2)) b); auto; try contradiction. reflexivity.
Qed.
Lemma read_sim L i W s1 s2 n : lex_ok L -> at_ L i W s1 s2 -> name_ok n = true ->
  E [] W s1 s2 (read_var fields mu1 (activations L) n s1) (read_var fields (mk i) (map snd L) n s2).
Proof.
  intros HL Ha Hn. unfold read_var. rewrite (lex_resolve n L Hn HL).
  destruct (resolve n (map snd L)) as [[k v]|] eqn:Er; cbn [option_map fst snd]; [apply (rd_sim L i W s1 s2 n k v); auto|].
  destruct (position n fields); [apply getf_sim; auto|]. pose proof Ha as (H & K & Hs & x & Hx & Ex).
  destruct (text_eqb n t_nil); [apply E_done; auto|].
  destruct (text_eqb n t_true); [apply E_done; auto|].
  destruct (text_eqb n t_false); [apply E_done; auto|]. apply E_call. cbn [m_glob vm_machine msg_machine]. rewrite <- Ex. eapply glob_sim; eauto.
Qed.
Lemma write_sim L i W s1 s2 n v : lex_ok L -> at_ L i W s1 s2 -> name_ok n = true ->
  E [] W s1 s2 (write_var fields mu1 (activations L) n v s1) (write_var fields (mk i) (map snd L) n v s2).
Proof.
  intros HL Ha Hn. unfold write_var. rewrite (lex_resolve n L Hn HL).
  destruct (resolve n (map snd L)) as [[k x]|] eqn:Er; cbn [option_map fst snd]; [apply (wr_sim L i W s1 s2 n k x v); auto|].
  destruct (position n fields); [apply setf_sim; auto|]. constructor.
Qed.
Lemma writes_sim L i v : lex_ok L -> forall ns W s1 s2, at_ L i W s1 s2 -> forallb name_ok ns = true ->
  E [] W s1 s2 (write_vars fields mu1 (activations L) ns v s1) (write_vars fields (mk i) (map snd L) ns v s2).
Proof.
  intros HL. induction ns as [|n ns IH]; cbn [forallb write_vars]; intros W s1 s2 Ha Hn; [apply E_done; apply Ha|].
  apply andb_true_iff in Hn as [Hn Hns]. apply (E_bind0 []); [apply write_sim; auto|].
  intros u W' t1 t2 N. apply IH; auto. eapply at_grows; eauto.
Qed.
Lemma lit_sim L i : forall l W s1 s2, at_ L i W s1 s2 -> E [] W s1 s2 (eval_lit mu1 l s1) (eval_lit (mk i) l s2).
Proof.
  assert (Snd : forall W s1 s2 sel args, at_ L i W s1 s2 -> E [] W s1 s2 (vm_send P call1 sel args s1) (vm_send P call2 sel args s2)).
  { intros. apply E_call. eapply send_sim; eauto; apply H. }
  induction l as [l|ls IH] using slit_ind'; intros W s1 s2 Ha; cbn [eval_lit].
  - destruct (lit_value l); cbn; [apply E_done; apply Ha|constructor].
  - apply (E_bind0 []).
    { apply E_call. cbn [m_glob vm_machine msg_machine]. destruct Ha as (H & K & _ & x & Hx & <-). eapply glob_sim; eauto. }
    intros a W' t1 t2 N. apply (at_grows _ _ _ _ _ _ _ _ _ Ha) in N as Ha'. apply (E_bind0 []); [apply Snd; auto|].
    clear a W s1 s2 Ha N. intros a W s1 s2 N. apply (at_grows _ _ _ _ _ _ _ _ _ Ha') in N as Ha. clear W' t1 t2 Ha' N.
    generalize 1 as j. revert a W s1 s2 Ha. induction IH as [|l ls Hl _ IH]; intros a W s1 s2 Ha j; [apply E_done; apply Ha|].
    apply (E_bind0 []); [apply Hl; auto|]. intros v W' t1 t2 N. apply (at_grows _ _ _ _ _ _ _ _ _ Ha) in N as Ha'.
    apply (E_bind0 []); [apply Snd; auto|]. intros u W'' u1 u2 N'. apply IH. eapply at_grows; eauto.
Qed.
(** Blocks. *)
Lemma in_find {A} (f : A -> nat) l a : NoDup (map f l) -> In a l -> find (fun b => f b =? f a) l = Some a.
Proof.
  induction l as [|b l IH]; cbn; [intros _ []|]. intros Hn [-> | Hi].
  - rewrite Nat.eqb_refl. auto.
  - inversion Hn; subst. destruct (Nat.eqb_spec (f b) (f a)) as [E|]; auto. exfalso. apply H1. rewrite E. apply in_map. auto.
Qed.
Lemma blk_sim' L i W s1 s2 b : at_ L i W s1 s2 -> In (b, L) (lex_of ms) ->
  E [] W s1 s2 (vm_blk F (label_of b) s1) (vm_blk i (label_of b) s2).
Proof.
  intros (H & K & Hs & x & Hx & Ex) Hi. destruct (m_frames _ _ _ _ H i x Hx) as (f1 & f2 & F1 & F2 & Em & _).
  assert (Fm : f_meth f2 = m).
  { destruct L as [|[own l] L]; [contradiction|]. destruct Hs as (y & f & _ & Hf & _ & _ & Hm & _). congruence. }
  unfold vm_blk. rewrite Ex in F1. rewrite F1, F2, Em, Fm. rewrite <- (Forall2_len _ _ _ (m_objs _ _ _ _ H)).
  eapply R_done. split; [split; [exists []; rewrite app_nil_r; auto|cbn; split; [apply keeps_refl|auto]]|].
  apply sim_new; auto. cbn. repeat split; auto. exists x, ms, b, L. repeat split; auto.
  unfold lex_block. apply (in_find (fun p => label_of (fst p)) (lex_of ms) (b, L)); auto.
Qed.
(** Returns. *)
Lemma outer_none L i W s1 s2 : lex_ok L -> at_ L i W s1 s2 -> depth (activations L) = 0 ->
  exists f1, nth_error (v_frames s1) F = Some f1 /\ f_outer f1 = None.
Proof.
  intros HL (H & K & Hs & x & Hx & Ex) D. destruct (lex_depth L HL) as [_ A]. unfold depth in D.
  assert (Hp : exists p, nth_error L (length L - 1) = Some p).
  { destruct (nth_error L (length L - 1)) eqn:En; eauto. exfalso. apply nth_error_None in En. destruct L; [contradiction|]. cbn in En. lia. }
  destruct Hp as (p & Hp). destruct (scoped_up _ _ _ _ _ H L HL i x Hs Hx _ p Hp) as (j & y & U2 & Hy & U1 & _ & _ & Hn).
  rewrite A, D in U1. cbn in U1. injection U1. intros E1. rewrite <- E1, Ex in Hn. apply Hn. destruct L; [contradiction|]. cbn. lia.
Qed.
Lemma ret_sim L i W s1 s2 v : lex_ok L -> at_ L i W s1 s2 ->
  E [] W s1 s2 (return_from mu1 (activations L) v s1) (mreturn mk back L i v s2).
Proof.
  intros HL Ha. pose proof Ha as (H & K & Hs & x & Hx & Ex). destruct L as [|[own l] L]; [contradiction|]. destruct own.
  - destruct L as [|q L].
    + cbn. eapply R_retn. split; eauto. apply grows_refl.
    + remember (q :: L) as L'. assert (HL' : lex_ok L') by (subst; apply HL).
      cbn [mreturn]. unfold return_from, depth. cbn [activations length].
      assert (Hd : exists k, length (activations L') = S k).
      { destruct (activations L') eqn:Ea; [exfalso; eapply acts_ne; eauto|cbn; eauto]. }
      destruct Hd as (k & Hd). rewrite Hd. replace (S (S k) - 1) with (S k) by lia.
      assert (Ox : w_own x = true).
      { destruct Hs as (y & f & Hy & _ & Oy & _). congruence. }
      destruct L' as [|q' L'']; [discriminate|]. apply (E_bind0 []).
      * cbn [m_nlr vm_machine msg_machine]. apply E_call. rewrite <- Ex. eapply return_sim; eauto.
      * intros w W' t1 t2 [G H']. eapply R_retn. split; eauto. apply grows_refl.
  - unfold mreturn, back. destruct (home_of_sim _ _ _ _ _ _ H Hx) as (y & Hy & Ey & Oy).
    rewrite (stk_in _ _ _ _ _ _ _ H K Hy Oy). unfold return_from.
    destruct (existsb (Nat.eqb (w_to y)) stk1) eqn:Es; [|destruct (depth (activations ((false, l) :: L))); constructor].
    destruct (depth (activations ((false, l) :: L))) eqn:D.
    + eapply R_back; eauto; [split; eauto; apply grows_refl|]. f_equal.
      destruct (outer_none _ _ _ _ _ HL Ha D) as (f1 & E1 & E2). rewrite Ey, Ex. unfold home_of.
      destruct (length (v_frames s1)); cbn [home]; auto. rewrite E1, E2. auto.
    + cbn [m_nlr vm_machine]. unfold do_return. rewrite <- Ex, <- Ey, Es. cbn [bind]. eapply R_ret; eauto. split; eauto. apply grows_refl.
Qed.

(** Messages. *)
Definition mblock (b : src) (L : lexenv) (i n : nat) (s : vm) : vout value :=
  match b with
  | SBlk _ _ ls ss ret _ => meval_block ss ret (inner ls L) (length (v_frames s)) n (push_frame m [] (Some i) s)
  | _ => Stuck
  end.
Definition mblock0 (b : src) (L : lexenv) (fid n : nat) (s : vm) : vout value :=
    match b with
    | SBlk _ _ ls ss ret _ =>
        let new := length (v_frames s) in
        (fix go (ss : list src) (s : vm) : vout value :=
           match ss with
           | [] => match ret with
                   | Some e => bind (meval e (inner ls L) new n s) (fun v s => mreturn mk back (inner ls L) new v s)
                   | None => Done VNil s
                   end
           | e :: ss' => match ss', ret with
                         | [], None => meval e (inner ls L) new n s
                         | _, _ => bind (meval e (inner ls L) new n s) (fun _ s => go ss' s)
                         end
           end) ss (push_frame m [] (Some fid) s)
    | _ => Stuck
    end.
Lemma mblock_eq b L i n s : mblock0 b L i n s = mblock b L i n s.
Proof.
  destruct b; auto. unfold mblock0, mblock. generalize (length (v_frames s)) as new. intros new.
  generalize (push_frame m [] (Some i) s) as t. induction ss as [|e ss IH]; intros t; auto.
  cbn [CtlSpec.meval_block]. destruct ss, ret; auto; apply bind_ext; intros; apply IH.
Qed.
Fixpoint meval_args (l : list src) (L : lexenv) (i n : nat) (vs : list value) (s : vm) : vout (list value) :=
  match l with
  | [] => Done vs s
  | a :: l => bind (meval a L i n s) (fun v s => meval_args l L i n (vs ++ [v]) s)
  end.
Definition mspecial (k : special) (sel : text) (r : src) (args : list src) (L : lexenv) (i n : nat) (s : vm) : vout value :=
  match k, args with
  | KWhile b, [a] => while_prim b n (boolean (mblock r L i)) (mblock a L i) s
  | _, [a] => bind (meval r L i n s) (fun v s => answer (control sel v [ABlk (mblock a L i n)]) s)
  | _, [a; b] => bind (meval r L i n s) (fun v s => answer (control sel v [ABlk (mblock a L i n); ABlk (mblock b L i n)]) s)
  | _, _ => Stuck
  end.
Definition mmessage (sup : bool) (r : src) (sel : text) (args : list src) (L : lexenv) (i n : nat) (s : vm) : vout value :=
  bind (meval r L i n s) (fun v s =>
  bind (meval_args args L i n [v] s) (fun vs s => if sup then m_super (mk i) sel vs s else m_send (mk i) sel vs s)).
Lemma while_ext n (t t' b b' : nat -> vm -> vout value) f s :
  (forall n s, t n s = t' n s) -> (forall n s, b n s = b' n s) -> while_loop n t b f s = while_loop n t' b' f s.
Proof.
  intros Ht Hb. revert s. induction n as [|n IH]; intros s; cbn [while_loop]; auto.
  rewrite Ht. apply bind_ext. intros v s1. destruct (f v); auto. rewrite Hb. apply bind_ext. auto.
Qed.
Lemma control_ext sel k v (f f' : vm -> vout value) s : special_of sel = Some k -> (forall s, f s = f' s) ->
  answer (control sel v [ABlk f]) s = answer (control sel v [ABlk f']) s.
Proof.
  intros Hs Hf. destruct (control sel v [ABlk f]) as [g|] eqn:E1.
  - destruct (control sel v [ABlk f']) as [g'|] eqn:E2; [|rewrite (control_some sel v f' f E2) in E1; discriminate]. cbn.
    revert E1 E2. unfold control, true_prim, false_prim, core_lib. destruct v;
      repeat match goal with |- context [text_eqb ?a ?b] => destruct (text_eqb a b) end;
      intros E1 E2; try discriminate; injection E1; injection E2; intros <- <-; cbn; auto.
  - rewrite (control_some sel v f f' E1). auto.
Qed.
Lemma control_ext2 sel v (f f' g g' : vm -> vout value) s : (forall s, f s = f' s) -> (forall s, g s = g' s) ->
  answer (control sel v [ABlk f; ABlk g]) s = answer (control sel v [ABlk f'; ABlk g']) s.
Proof.
  intros Hf Hg. unfold control, true_prim, false_prim, core_lib. destruct v;
      repeat match goal with |- context [text_eqb ?a ?b] => destruct (text_eqb a b) end; cbn; auto.
Qed.
Lemma meval_send sup r sel args L i n s :
  meval (SSend sup r sel args) L i n s =
  match special_form sup r sel args with
  | Some k => mspecial k sel r args L i n s
  | None => mmessage sup r sel args L i n s
  end.
Proof.
  destruct (special_form sup r sel args) as [k|] eqn:Ek.
  - apply special_shape in Ek as E'. destruct E' as (-> & Es & Ha).
    cbn [CtlSpec.meval]. rewrite Ek. destruct k.
    + destruct Ha as (a & -> & Ha). apply bind_ext. intros v s1. eapply control_ext; [exact Es|]. intros. apply (mblock_eq a L i n).
    + destruct Ha as (a & b & -> & Ha & Hb). apply bind_ext. intros v s1. apply control_ext2; intros; [apply (mblock_eq a L i n)|apply (mblock_eq b L i n)].
    + destruct Ha as (a & -> & Hr & Ha). unfold mspecial, while_prim. apply while_ext; intros.
      * unfold boolean. rewrite <- (mblock_eq r L i n0 s0). reflexivity.
      * apply (mblock_eq a L i n0 s0).
    + destruct Ha as (a & -> & Ha). apply bind_ext. intros v s1. eapply control_ext; [exact Es|]. intros. apply (mblock_eq a L i n).
  - cbn [CtlSpec.meval]. rewrite Ek. unfold mmessage. apply bind_ext. intros v s1. generalize [v] as vs. revert s1.
    induction args as [|a l IH] in |- *; intros s1 vs; cbn [meval_args]; auto.
    rewrite bind_assoc. apply bind_ext. intros. apply IH.
Qed.

(** * Evaluation *)
Definition blk_ids (b : src) : list nat :=
  match b with SBlk _ _ ls ss ret _ => map snd ls ++ body_ids ss ret | _ => [] end.
Definition plain_all (ss : list src) : Prop := fold_right (fun e q => plain e /\ q) True ss.
Definition plain_ret (ret : option src) : Prop := match ret with Some e => plain e | None => True end.
Definition plain_blk (b : src) : Prop :=
  match b with SBlk _ _ ls ss ret _ => plain_all ss /\ plain_ret ret | _ => True end.
Definition plain_blks (ss : list src) : Prop := fold_right (fun e q => plain_blk e /\ q) True ss.
Lemma ids_send sup r sel args : inl_ids (SSend sup r sel args) =
  match special_form sup r sel args with
  | Some (KWhile _) => blk_ids r ++ flat_map blk_ids args
  | Some _ => inl_ids r ++ flat_map blk_ids args
  | None => inl_ids r ++ flat_map inl_ids args
  end.
Proof. reflexivity. Qed.
Lemma plain_send sup r sel args : plain (SSend sup r sel args) =
  match special_form sup r sel args with
  | Some (KWhile _) => inl_ids (SSend sup r sel args) = [] /\ plain_blk r /\ plain_blks args
  | Some _ => plain r /\ plain_blks args
  | None => plain r /\ plain_all args
  end.
Proof. reflexivity. Qed.
Lemma nodup_app {A} (a b : list A) : NoDup (a ++ b) -> NoDup a /\ NoDup b /\ forall d, In d a -> In d b -> False.
Proof.
  induction a as [|x a IH]; cbn; intros H; [repeat split; auto; constructor|]. inversion H; subst. destruct (IH H3) as (A1 & A2 & A3).
  repeat split; auto.
  - constructor; auto. intros Hi. apply H2. apply in_or_app; auto.
  - intros d [<- | Hd] Hb; [apply H2, in_or_app; auto|eauto].
Qed.
Lemma next L i a b W s1 s2 W' t1 t2 : at_ L i W s1 s2 -> fresh W F (a ++ b) -> NoDup (a ++ b) -> now F a W s1 s2 W' t1 t2 ->
  at_ L i W' t1 t2 /\ fresh W' F b.
Proof.
  intros Ha Hf Hn N. split; [eapply at_grows; eauto|]. apply nodup_app in Hn as (_ & _ & Hd).
  eapply fresh_grows; [apply N|eapply at_lt; eauto| |exact Hd]. eapply fresh_incl; [|exact Hf]. apply incl_appr, incl_refl.
Qed.
Lemma fresh_l W a b : fresh W F (a ++ b) -> fresh W F a.
Proof. apply fresh_incl. apply incl_appl, incl_refl. Qed.
Lemma E_from {A} a b W s1 s2 W' t1 t2 (o1 o2 : vout A) : grows F a W s1 s2 W' t1 t2 -> E b W' t1 t2 o1 o2 -> E (a ++ b) W s1 s2 o1 o2.
Proof.
  intros G H. eapply R_imp; [| |exact H]; auto. intros W'' u1 u2 [G' S]. split; auto. eapply grows_trans; eauto.
Qed.
Definition ev_ok (e : src) : Prop := ok_src e = true -> plain e -> forall L i n W s1 s2, lex_ok L ->
  incl (lex_blocks e L) (lex_of ms) -> NoDup (inl_ids e) -> at_ L i W s1 s2 -> fresh W F (inl_ids e) ->
  E (inl_ids e) W s1 s2 (eval e mu1 (activations L) n s1) (meval e L i n s2).
Lemma body_sim ss ret : Forall ev_ok ss -> (forall e, ret = Some e -> ev_ok e) ->
  forallb ok_src ss = true -> ok_ret ret = true -> plain_all ss -> plain_ret ret ->
  forall L i n W s1 s2, lex_ok L -> incl (lex_body ss ret L) (lex_of ms) -> NoDup (body_ids ss ret) -> at_ L i W s1 s2 ->
  fresh W F (body_ids ss ret) ->
  E (body_ids ss ret) W s1 s2 (eval_block fields ss ret mu1 (activations L) n s1) (meval_block ss ret L i n s2).
Proof.
  intros Hs Hr. induction Hs as [|e ss He Hs IH]; intros O1 O2 P1 P2 L i n W s1 s2 HL Hb Hn Ha Hf.
  - cbn [eval_block CtlSpec.meval_block]. destruct ret as [e|]; [|apply E_done; apply Ha].
    cbn [body_ids flat_map app] in *. apply E_bind0; [apply Hr; auto|]. intros v W' t1 t2 N.
    apply ret_sim; auto. eapply at_grows; eauto.
  - cbn [forallb] in O1. apply andb_true_iff in O1 as [O0 O1]. destruct P1 as [P0 P1].
    assert (B1 : incl (lex_blocks e L) (lex_of ms)).
    { intros x Hx. apply Hb. unfold lex_body. cbn [flat_map]. apply in_or_app. left. apply in_or_app. auto. }
    assert (B2 : incl (lex_body ss ret L) (lex_of ms)).
    { intros x Hx. apply Hb. unfold lex_body in *. cbn [flat_map]. rewrite <- app_assoc. apply in_or_app. auto. }
    assert (Ei : body_ids (e :: ss) ret = inl_ids e ++ body_ids ss ret).
    { unfold body_ids. cbn [flat_map]. rewrite app_assoc. auto. }
    rewrite Ei in *. pose proof (nodup_app _ _ Hn) as (N1 & N2 & _).
    assert (X : E (inl_ids e ++ body_ids ss ret) W s1 s2
                 (bind (eval e mu1 (activations L) n s1) (fun _ s => eval_block fields ss ret mu1 (activations L) n s))
                 (bind (meval e L i n s2) (fun _ s => meval_block ss ret L i n s))).
    { apply E_bind; [apply He; eauto using fresh_l|]. intros v W' t1 t2 N. destruct (next _ _ _ _ _ _ _ _ _ _ Ha Hf Hn N) as [Ha' Hf']. apply IH; auto. }
    cbn [eval_block CtlSpec.meval_block]. destruct ss as [|e' ss], ret as [e''|]; auto.
    unfold body_ids. cbn [flat_map]. rewrite !app_nil_r. apply He; auto. unfold body_ids in Hf; cbn [flat_map] in Hf; rewrite !app_nil_r in Hf. auto.
Qed.
Definition inl_ok (e : src) : Prop := ok_src e = true -> no_params e = true -> is_block e = true -> plain_blk e ->
  forall L i n W s1 s2, lex_ok L -> incl (lex_inl e L) (lex_of ms) -> NoDup (blk_ids e) -> at_ L i W s1 s2 ->
  fresh W F (blk_ids e) -> E (blk_ids e) W s1 s2 (eval_inline fields e mu1 (activations L) n s1) (mblock e L i n s2).
Lemma inline_sim label ps ls ss ret per : Forall ev_ok ss -> (forall e, ret = Some e -> ev_ok e) -> inl_ok (SBlk label ps ls ss ret per).
Proof.
  intros Hs Hr Ho Hp _ [P1 P2] L i n W s1 s2 HL Hb Hn Ha Hf. cbn [ok_src] in Ho.
  apply andb_true_iff in Ho as [Ho O2]. apply andb_true_iff in Ho as [Ho O1].
  cbn [eval_inline mblock blk_ids] in *. pose proof Ha as (H & K & Hsc & x & Hx & Ex).
  assert (Hsc0 := Hsc). destruct L as [|[own l] L0] eqn:EL; [contradiction|]. rewrite <- EL in *. clear EL own l L0 Hsc0.
  set (W1 := W ++ [Wf F (map snd ls) false]). set (t2 := push_frame m [] (Some i) s2).
  assert (Hm : exists f2, nth_error (v_frames s2) i = Some f2 /\ f_meth f2 = m).
  { destruct L as [|[own l] L0]; [contradiction|]. destruct Hsc as (y & f & _ & Hf2 & _ & _ & Hmm & _). eauto. }
  assert (S1 : sim W1 s1 t2).
  { unfold W1, t2. rewrite <- Ex. apply sim_inner; auto. rewrite Ex. eapply fresh_l; eauto. }
  assert (G : grows F (map snd ls) W s1 s2 W1 s1 t2).
  { split; [exists [Wf F (map snd ls) false]; split; auto; constructor; auto; left; split; auto; apply incl_refl|].
    split; auto. apply keeps_app. }
  assert (Ha' : at_ (inner ls L) (length (v_frames s2)) W1 s1 t2).
  { assert (Hl := m_len _ _ _ _ H). split; [auto|split; [eapply stk_called; [split; eauto|auto]|split]].
    - unfold inner. cbn [scoped]. exists (Wf F (map snd ls) false), (Frame m [] [] (Some i) true). unfold W1, t2. cbn.
      rewrite <- Hl at 1. rewrite !nth_last. rewrite app_nil_r. repeat split; auto using incl_refl.
      assert (Q : scoped (W ++ [Wf F (map snd ls) false]) (v_frames s2 ++ [Frame m [] [] (Some i) true]) m L i).
      { eapply scoped_keeps; [|apply keeps_app|exact Hsc]. intros j y Hy. rewrite nth_error_app1; auto. apply nth_error_Some. congruence. }
      destruct L as [|q L']; [contradiction|]. exists i. auto.
    - exists (Wf F (map snd ls) false). split; auto. unfold W1. rewrite <- Hl. apply nth_last. }
  assert (Hf' : fresh W1 F (body_ids ss ret)).
  { apply nodup_app in Hn as (_ & _ & Hd). eapply fresh_grows; [exact G|eapply at_lt; eauto| |exact Hd].
    eapply fresh_incl; [|exact Hf]. apply incl_appr, incl_refl. }
  eapply E_from; [exact G|]. rewrite <- (acts_inl ls L HL). apply body_sim; auto.
  - apply lex_ok_inl; auto.
  - apply nodup_app in Hn. apply Hn.
Qed.
Lemma loop_sim (b : bool) r a L i : lex_ok L ->
  (forall n W s1 s2, at_ L i W s1 s2 -> E [] W s1 s2 (eval_inline fields r mu1 (activations L) n s1) (mblock r L i n s2)) ->
  (forall n W s1 s2, at_ L i W s1 s2 -> E [] W s1 s2 (eval_inline fields a mu1 (activations L) n s1) (mblock a L i n s2)) ->
  forall n W s1 s2, at_ L i W s1 s2 ->
  E [] W s1 s2 (repeat_while n (eval_inline fields r mu1 (activations L)) (eval_inline fields a mu1 (activations L)) (if b then OnFalse else OnTrue) s1)
    (while_prim b n (boolean (mblock r L i)) (mblock a L i) s2).
Proof.
  intros HL Hr Ha. unfold while_prim. induction n as [|n IH]; intros W s1 s2 At; cbn [repeat_while while_loop]; [constructor|].
  unfold boolean at 1. rewrite bind_assoc. apply (E_bind0 []); [apply Hr; auto|]. intros v W' t1 t2 N.
  pose proof (at_grows _ _ _ _ _ _ _ _ _ At N) as At'.
  assert (X : E [] W' t1 t2 (bind (eval_inline fields a mu1 (activations L) (S n) t1) (fun _ s => repeat_while n (eval_inline fields r mu1 (activations L)) (eval_inline fields a mu1 (activations L)) (if b then OnFalse else OnTrue) s))
     (bind (mblock a L i (S n) t2) (fun _ s => while_loop n (boolean (mblock r L i)) (mblock a L i) (if b then is_true else is_false) s))).
  { apply (E_bind0 []); [apply Ha; auto|]. intros v' W'' u1 u2 N'. apply IH. eapply at_grows; eauto. }
  assert (Y : E [] W' t1 t2 (Done VNil t1) (Done VNil t2)) by (apply E_done; apply At').
  destruct v; cbn [is_boolean is_true is_false orb bind]; try constructor; destruct b; cbn [takes is_true is_false]; auto.
Qed.
Lemma incl_app_l {A} (a b c : list A) : incl (a ++ b) c -> incl a c.
Proof. intros H x Hx. apply H, in_or_app. auto. Qed.
Lemma incl_app_r {A} (a b c : list A) : incl (a ++ b) c -> incl b c.
Proof. intros H x Hx. apply H, in_or_app. auto. Qed.
Lemma args_sim L i n args : lex_ok L -> Forall ev_ok args -> forallb ok_src args = true -> plain_all args ->
  incl (flat_map (fun a => lex_blocks a L) args) (lex_of ms) -> NoDup (flat_map inl_ids args) ->
  forall vs W s1 s2, at_ L i W s1 s2 -> fresh W F (flat_map inl_ids args) ->
  E (flat_map inl_ids args) W s1 s2 (eval_args fields args mu1 (activations L) n vs s1) (meval_args args L i n vs s2).
Proof.
  intros HL Hs. induction Hs as [|e ss He Hs IH]; intros O1 P1 Hb Hn vs W s1 s2 Ha Hf; cbn [eval_args meval_args]; [apply E_done; apply Ha|].
  cbn [forallb flat_map] in *. apply andb_true_iff in O1 as [O0 O1]. destruct P1 as [P0 P1]. pose proof (nodup_app _ _ Hn) as (N1 & N2 & _).
  apply E_bind; [apply He; eauto using fresh_l, incl_app_l|]. intros v W' t1 t2 N.
  destruct (next _ _ _ _ _ _ _ _ _ _ Ha Hf Hn N) as [Ha' Hf']. apply IH; eauto using incl_app_r.
Qed.
Lemma eval_sim e : ev_ok e /\ inl_ok e.
Proof.
  induction e as [n|l|sup r sel args IHr IHa|e IH|e IH|vs e IH|label ps ls ss ret per IHs IHr] using src_ind';
    (split; [|try (intros _ _ Hb; discriminate)]); try (intros Ho Hp L i k W s1 s2 HL Hb Hn Ha Hf).
  - apply read_sim; auto.
  - eapply lit_sim; eauto.
  - rewrite eval_send, meval_send. rewrite plain_send in Hp. rewrite ids_send in *. rewrite lex_send in Hb.
    cbn [ok_src] in Ho. apply andb_true_iff in Ho as [Ho O4]. apply andb_true_iff in Ho as [Ho O3]. apply andb_true_iff in Ho as [O1 O2].
    destruct (special_form sup r sel args) as [kk|] eqn:Ek.
    + apply special_shape in Ek as E'. destruct E' as (-> & Es & Sh). destruct kk.
      * destruct Sh as (a & -> & Ia). destruct Hp as [P1 [P2 _]]. cbn [flat_map forallb] in *. rewrite app_nil_r in *.
        apply andb_true_iff in O2 as [O2 _]. apply andb_true_iff in O4 as [O4 _]. pose proof (nodup_app _ _ Hn) as (N1 & N2 & _).
        cbn [eval_special mspecial]. apply E_bind; [apply IHr; eauto using fresh_l, incl_app_l|].
        intros v W' t1 t2 N. destruct (next _ _ _ _ _ _ _ _ _ _ Ha Hf Hn N) as [Ha' Hf'].
        destruct (control sel v [ABlk (mblock a L i k)]) as [g|] eqn:Eg; [|constructor]. cbn [answer].
        rewrite (control_then _ _ _ _ _ Es Eg). inversion IHa as [|? ? [_ IA] _]; subst.
        destruct (takes k0 v); [apply E_done; apply Ha'|]. apply IA; eauto using incl_app_r.
      * destruct Sh as (a & b & -> & Ia & Ib). destruct Hp as [P1 [P2 [P3 _]]]. cbn [flat_map forallb] in *. rewrite app_nil_r in *.
        apply andb_true_iff in O2 as [O2 O2']. apply andb_true_iff in O2' as [O2' _]. apply andb_true_iff in O4 as [O4 O4']. apply andb_true_iff in O4' as [O4' _].
        pose proof (nodup_app _ _ Hn) as (N1 & N2 & _). pose proof (nodup_app _ _ N2) as (N3 & N4 & _).
        cbn [eval_special mspecial]. apply E_bind; [apply IHr; eauto using fresh_l, incl_app_l|].
        intros v W' t1 t2 N. destruct (next _ _ _ _ _ _ _ _ _ _ Ha Hf Hn N) as [Ha' Hf'].
        destruct (control sel v [ABlk (mblock a L i k); ABlk (mblock b L i k)]) as [g|] eqn:Eg; [|constructor]. cbn [answer].
        rewrite (control_else _ _ _ _ _ _ Es Eg). inversion IHa as [|? ? [_ IA] IHa']; subst. inversion IHa' as [|? ? [_ IB] _]; subst.
        apply incl_app_r in Hb. destruct (takes k0 v).
        -- eapply E_incl; [|apply IB; auto]. apply incl_appr, incl_refl. eapply incl_app_r; eauto.
           eapply fresh_incl; [|exact Hf']. apply incl_appr, incl_refl.
        -- eapply E_incl; [|apply IA; eauto using fresh_l, incl_app_l]. apply incl_appl, incl_refl.
      * destruct Sh as (a & -> & Ir & Ia). destruct Hp as [P0 [P1 [P2 _]]]. cbn [flat_map forallb] in *. rewrite app_nil_r in *.
        rewrite P0 in *. apply app_eq_nil in P0 as [Z1 Z2].
        apply andb_true_iff in O2 as [O2 _]. apply andb_true_iff in O4 as [O4 O5]. apply andb_true_iff in O5 as [O5 _].
        inversion IHa as [|? ? [_ IA] _]; subst. destruct IHr as [_ IR]. cbn [eval_special mspecial].
        apply loop_sim; auto.
        -- intros n0 W0 u1 u2 Hat. rewrite <- Z1. apply IR; auto; rewrite ?Z1; auto using NoDup_nil; [eapply incl_app_l; eauto|intros ? ? ? ? []].
        -- intros n0 W0 u1 u2 Hat. rewrite <- Z2. apply IA; auto; rewrite ?Z2; auto using NoDup_nil; [eapply incl_app_r; eauto|intros ? ? ? ? []].
      * destruct Sh as (a & -> & Ia). destruct Hp as [P1 [P2 _]]. cbn [flat_map forallb] in *. rewrite app_nil_r in *.
        apply andb_true_iff in O2 as [O2 _]. apply andb_true_iff in O4 as [O4 _]. pose proof (nodup_app _ _ Hn) as (N1 & N2 & _).
        cbn [eval_special mspecial]. apply E_bind; [apply IHr; eauto using fresh_l, incl_app_l|].
        intros v W' t1 t2 N. destruct (next _ _ _ _ _ _ _ _ _ _ Ha Hf Hn N) as [Ha' Hf'].
        destruct (control sel v [ABlk (mblock a L i k)]) as [g|] eqn:Eg; [|constructor]. cbn [answer].
        rewrite (control_andor _ _ _ _ _ Es Eg). inversion IHa as [|? ? [_ IA] _]; subst.
        destruct (takes _ v); [apply E_done; apply Ha'|]. apply IA; eauto using incl_app_r.
    + destruct Hp as [P1 P2]. pose proof (nodup_app _ _ Hn) as (N1 & N2 & _).
      unfold eval_message, mmessage. apply E_bind; [apply IHr; eauto using fresh_l, incl_app_l|].
      intros v W' t1 t2 N. destruct (next _ _ _ _ _ _ _ _ _ _ Ha Hf Hn N) as [Ha' Hf'].
      apply E_bind0; [apply args_sim; eauto using incl_app_r|].
      { eapply Forall_impl; [|exact IHa]. intros a [A _]. exact A. }
      intros vs W'' u1 u2 N'. pose proof (at_grows _ _ _ _ _ _ _ _ _ Ha' N') as (H'' & K'' & _). apply E_call.
      destruct sup; cbn [m_send m_super vm_machine msg_machine]; [eapply super_sim; eauto|eapply send_sim; eauto].
  - cbn [BcSpec.eval CtlSpec.meval]. apply (E_bind0 (inl_ids (SInc e))); [apply IH; auto|].
    intros v W' t1 t2 [_ N]. apply E_call. apply res_sim; auto.
  - cbn [BcSpec.eval CtlSpec.meval]. apply (E_bind0 (inl_ids (SDec e))); [apply IH; auto|].
    intros v W' t1 t2 [_ N]. apply E_call. apply res_sim; auto.
  - cbn [ok_src] in Ho. apply andb_true_iff in Ho as [Ho1 Ho2]. cbn [BcSpec.eval CtlSpec.meval].
    apply (E_bind0 (inl_ids (SAsgn vs e))); [apply IH; auto|].
    intros v W' t1 t2 N. apply (E_bind0 []); [apply writes_sim; auto; [eapply at_grows; eauto|destruct vs; auto; discriminate]|].
    intros u W'' u1 u2 [_ N']. apply E_done; auto.
  - cbn [BcSpec.eval CtlSpec.meval]. apply (blk_sim' L i W s1 s2 (SBlk label ps ls ss ret per)); auto. apply Hb. left. reflexivity.
  - revert Ho Hp L i k W s1 s2 HL Hb Hn Ha Hf. apply inline_sim; [eapply Forall_impl; [|exact IHs]; intros a [A _]; exact A|].
    intros e ->. apply IHr.
Qed.
Lemma method_sim ss ret : forallb ok_src ss = true -> ok_ret ret = true -> plain_all ss -> plain_ret ret ->
  forall L i n W s1 s2, lex_ok L -> incl (lex_body ss ret L) (lex_of ms) -> NoDup (body_ids ss ret) -> at_ L i W s1 s2 ->
  (forall x, nth_error W i = Some x -> w_own x = true) ->
  fresh W F (body_ids ss ret) ->
  E (body_ids ss ret) W s1 s2 (eval_method fields ss ret mu1 (activations L) n s1) (meval_method fields m mk back ss ret L i n s2).
Proof.
  induction ss as [|e ss IH]; intros O1 O2 P1 P2 L i n W s1 s2 HL Hb Hn Ha Hw Hf.
  - cbn [eval_method meval_method]. assert (Rt : forall v W t1 t2, sim W t1 t2 -> E (A := value) [] W t1 t2 (Retn v t1) (Retn v t2)).
    { intros. eapply R_retn. split; eauto. apply grows_refl. }
    destruct ret as [e|].
    + cbn [body_ids flat_map app] in *. apply E_bind0; [apply eval_sim; auto|]. intros v W' t1 t2 [_ N]. apply Rt; auto.
    + cbn [body_ids flat_map app] in *. apply (E_bind0 []).
      * cbn [m_rd vm_machine msg_machine]. destruct Ha as (H & K & Hs & x & Hx & Ex). destruct (m_frames _ _ _ _ H i x Hx) as (f1 & f2 & F1 & F2 & _ & _ & FS).
        unfold vm_rd, at_level. cbn [up]. rewrite Ex in F1. rewrite F1, F2. rewrite (Hw x Hx) in FS. destruct FS as [-> _].
        destruct (nth_error (f_args f2) 0); [apply E_done; auto|]. eapply R_py; split; eauto; apply grows_refl.
      * intros v W' t1 t2 [_ N]. apply Rt; auto.
  - cbn [forallb] in O1. apply andb_true_iff in O1 as [O0 O1]. destruct P1 as [P0 P1].
    assert (B1 : incl (lex_blocks e L) (lex_of ms)).
    { intros x Hx. apply Hb. unfold lex_body. cbn [flat_map]. apply in_or_app. left. apply in_or_app. auto. }
    assert (B2 : incl (lex_body ss ret L) (lex_of ms)).
    { intros x Hx. apply Hb. unfold lex_body in *. cbn [flat_map]. rewrite <- app_assoc. apply in_or_app. auto. }
    assert (Ei : body_ids (e :: ss) ret = inl_ids e ++ body_ids ss ret).
    { unfold body_ids. cbn [flat_map]. rewrite app_assoc. auto. }
    rewrite Ei in *. pose proof (nodup_app _ _ Hn) as (N1 & N2 & _).
    cbn [eval_method meval_method]. apply E_bind; [apply eval_sim; eauto using fresh_l|]. intros v W' t1 t2 N.
    destruct (next _ _ _ _ _ _ _ _ _ _ Ha Hf Hn N) as [Ha' Hf']. apply IH; auto.
    intros x Hx. destruct Ha as (H & _ & _ & y & Hy & _). apply (Hw x). rewrite <- Hx. rewrite Hy. symmetry. eapply grows_nth; [apply N|auto].
Qed.
End Here.
End Run.
