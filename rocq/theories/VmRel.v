(** Running the same code on two machines whose operations correspond gives corresponding
    outcomes.  The second machine may be a sequence of machines: it is enough that each of its
    operations settles. *)
From Coq Require Import ZArith Bool String Ascii List Lia.
From Verif Require Import Base LexModel ParseModel BcModel BcInterp BcSpec BcTab BcCode BcEval VmModel VmSpec.
Import ListNotations.
Open Scope nat_scope.
Open Scope list_scope.

Section Rel.
Context {S1 X1 S2 X2 : Type}.
Variable Rs : S1 -> S2 -> Prop.
Variable Rx : X1 -> X2 -> S1 -> S2 -> Prop.

(** The same kind of outcome, the same value, corresponding states and exceptions. *)
Inductive rel_out {A : Type} : out S1 X1 A -> out S2 X2 A -> Prop :=
| rel_done a s1 s2 : Rs s1 s2 -> rel_out (Done a s1) (Done a s2)
| rel_retn v s1 s2 : Rs s1 s2 -> rel_out (Retn v s1) (Retn v s2)
| rel_abrupt x1 x2 s1 s2 : Rx x1 x2 s1 s2 -> rel_out (Abrupt x1 s1) (Abrupt x2 s2)
| rel_stuck : rel_out Stuck Stuck.
(** [c] settles on an outcome that corresponds to [o], unless [o] is no outcome. *)
Definition lim {A} (o : out S1 X1 A) (c : nat -> out S2 X2 A) : Prop :=
  o = Hang \/ exists o2 J, (forall j, J <= j -> c j = o2) /\ rel_out o o2.

Lemma lim_ext {A} (o : out S1 X1 A) c c' : lim o c -> (forall j, c j = c' j) -> lim o c'.
Proof.
  intros [H | (o2 & J & H & R)] E; [left; auto|right]. exists o2, J. split; auto.
  intros j Hj. rewrite <- E. auto.
Qed.
Lemma lim_rel {A} (o : out S1 X1 A) o2 : rel_out o o2 -> lim o (fun _ => o2).
Proof. intros H. right. exists o2, 0. auto. Qed.
Lemma lim_done {A} (a : A) s1 s2 : Rs s1 s2 -> lim (Done a s1) (fun _ => Done a s2).
Proof. intros. apply lim_rel. constructor. auto. Qed.
Lemma lim_retn {A} v s1 s2 : Rs s1 s2 -> @lim A (Retn v s1) (fun _ => Retn v s2).
Proof. intros. apply lim_rel. constructor. auto. Qed.
Lemma lim_stuck {A} : @lim A Stuck (fun _ => Stuck).
Proof. apply lim_rel. constructor. Qed.
Lemma lim_hang {A} c : @lim A Hang c.
Proof. left. auto. Qed.
Lemma lim_bind {A B} (o : out S1 X1 A) c (f : A -> S1 -> out S1 X1 B) g :
  lim o c -> (forall a s1 s2, Rs s1 s2 -> lim (f a s1) (fun j => g j a s2)) ->
  lim (bind o f) (fun j => bind (c j) (g j)).
Proof.
  intros [-> | (o2 & J & H & R)] F; [left; auto|].
  destruct R as [a s1 s2 R|v s1 s2 R|x1 x2 s1 s2 R Q|].
  - destruct (F a s1 s2 R) as [E | (o3 & J' & H' & R')]; [left; auto|right].
    exists o3, (J + J'). split; auto. intros j Hj. rewrite H by lia. cbn. apply H'. lia.
  - right. exists (Retn v s2), J. split; [|constructor; auto]. intros j Hj. rewrite H by lia. auto.
  - right. exists (Abrupt x2 s2), J. split; [|constructor; auto]. intros j Hj. rewrite H by lia. auto.
  - right. exists Stuck, J. split; [|constructor; auto]. intros j Hj. rewrite H by lia. auto.
Qed.
Lemma lim_bind' {A B} (o : out S1 X1 A) c (f : A -> S1 -> out S1 X1 B) g :
  lim o c -> (forall a s1 s2, Rs s1 s2 -> lim (f a s1) (fun _ => g a s2)) ->
  lim (bind o f) (fun j => bind (c j) g).
Proof. intros H F. apply (lim_bind o c f (fun _ => g) H F). Qed.

(** The machines correspond, as far as they are used: [nl] are the levels of returns out of
    blocks, [lb] the numbers of the blocks, [wr] the variables that are assigned. *)
Record rel_machine (nl lb : nat -> Prop) (wr : nat -> vref -> Prop) (μ1 : machine S1 X1) (μ2 : nat -> machine S2 X2) : Prop := {
  rm_send : forall t l s1 s2, Rs s1 s2 -> lim (m_send μ1 t l s1) (fun j => m_send (μ2 j) t l s2);
  rm_super : forall t l s1 s2, Rs s1 s2 -> lim (m_super μ1 t l s1) (fun j => m_super (μ2 j) t l s2);
  rm_glob : forall t s1 s2, Rs s1 s2 -> lim (m_glob μ1 t s1) (fun j => m_glob (μ2 j) t s2);
  rm_blk : forall l s1 s2, lb l -> Rs s1 s2 -> lim (m_blk μ1 l s1) (fun j => m_blk (μ2 j) l s2);
  rm_rd : forall k v s1 s2, Rs s1 s2 -> lim (m_rd μ1 k v s1) (fun j => m_rd (μ2 j) k v s2);
  rm_wr : forall k v x s1 s2, wr k v -> Rs s1 s2 -> lim (m_wr μ1 k v x s1) (fun j => m_wr (μ2 j) k v x s2);
  rm_getf : forall k i s1 s2, Rs s1 s2 -> lim (m_getf μ1 k i s1) (fun j => m_getf (μ2 j) k i s2);
  rm_setf : forall k i v s1 s2, Rs s1 s2 -> lim (m_setf μ1 k i v s1) (fun j => m_setf (μ2 j) k i v s2);
  rm_incf : forall k i s1 s2, Rs s1 s2 -> lim (m_incf μ1 k i s1) (fun j => m_incf (μ2 j) k i s2);
  rm_inc : forall v s1 s2, Rs s1 s2 -> lim (m_inc μ1 v s1) (fun j => m_inc (μ2 j) v s2);
  rm_dec : forall v s1 s2, Rs s1 s2 -> lim (m_dec μ1 v s1) (fun j => m_dec (μ2 j) v s2);
  rm_nlr : forall k v s1 s2, nl k -> Rs s1 s2 -> lim (m_nlr μ1 k v s1) (fun j => m_nlr (μ2 j) k v s2) }.

(** The receiver of the activation of a block is called $blockSelf. *)
Fixpoint blocky (rho : env) : Prop :=
  match rho with
  | [] | [_] => True
  | l :: r => hd_error (lv_args l) = Some t_block_self /\ blocky r
  end.
(** Any variable may be assigned but the receiver of a block's activation. *)
Definition assignable (d k : nat) (v : vref) : Prop :=
  match v with VArg 0 => k = d | _ => True end.
Lemma blocky_add_layer ls rho : blocky rho -> blocky (add_layer ls rho).
Proof. destruct rho as [|l [|l' r]]; cbn; auto. Qed.
Lemma resolve_assignable n : name_ok n = true -> forall rho k v, blocky rho -> resolve n rho = Some (k, v) ->
  assignable (depth rho) k v.
Proof.
  intros Hn. induction rho as [|l r IH]; intros k v Hb H; [discriminate|]. cbn [resolve] in H.
  unfold in_level in H. destruct (in_layers n (lv_layers l)) as [d|]; [inversion H; exact I|].
  destruct (position n (lv_args l)) as [i|] eqn:Ei; cbn [option_map] in H.
  - inversion H; subst. destruct i; [|exact I]. cbn [assignable]. destruct r as [|l' r]; [reflexivity|].
    destruct Hb as [Hb _]. destruct (lv_args l) as [|x xs]; [discriminate|]. cbn [hd_error] in Hb.
    assert (Ex : x = t_block_self) by congruence. subst x.
    cbn [position] in Ei. rewrite (name_ok_neq n Hn) in Ei. destruct (position n xs); discriminate.
  - destruct (resolve n r) as [[k' v']|] eqn:Er; [|discriminate]. cbn in H. inversion H; subst.
    assert (Hb' : blocky r) by (destruct r; cbn; [auto|apply Hb]).
    specialize (IH k' v Hb' eq_refl). destruct v as [d|[|i]]; auto. cbn [assignable] in *. subst k'.
    unfold depth. destruct r; [discriminate|]. cbn. lia.
Qed.

Section Eval.
Variable fields : list text.
Variables nl lb : nat -> Prop.
Variable wr : nat -> vref -> Prop.
Variable μ1 : machine S1 X1.
Variable μ2 : nat -> machine S2 X2.
Hypothesis HM : rel_machine nl lb wr μ1 μ2.
Notation eval := (eval fields).
Notation eval_block := (eval_block fields).

Lemma read_rel rho n s1 s2 : Rs s1 s2 ->
  lim (read_var fields μ1 rho n s1) (fun j => read_var fields (μ2 j) rho n s2).
Proof.
  intros H. unfold read_var. destruct (resolve n rho) as [[k v]|]; [eapply rm_rd; eauto|].
  destruct (position n fields); [eapply rm_getf; eauto|].
  destruct (text_eqb n t_nil); [apply lim_done; auto|].
  destruct (text_eqb n t_true); [apply lim_done; auto|].
  destruct (text_eqb n t_false); [apply lim_done; auto|]. eapply rm_glob; eauto.
Qed.
(** Activations in which all that may be assigned corresponds. *)
Definition wr_ok (rho : env) : Prop := blocky rho /\ forall k v, assignable (depth rho) k v -> wr k v.
Lemma write_rel rho n v s1 s2 : wr_ok rho -> name_ok n = true -> Rs s1 s2 ->
  lim (write_var fields μ1 rho n v s1) (fun j => write_var fields (μ2 j) rho n v s2).
Proof.
  intros [W1 W2] Hn H. unfold write_var. destruct (resolve n rho) as [[k x]|] eqn:E.
  { eapply rm_wr; eauto. apply W2. eapply resolve_assignable; eauto. }
  destruct (position n fields); [eapply rm_setf; eauto|]. apply lim_stuck.
Qed.
Lemma writes_rel rho vs v : wr_ok rho -> forallb name_ok vs = true -> forall s1 s2, Rs s1 s2 ->
  lim (write_vars fields μ1 rho vs v s1) (fun j => write_vars fields (μ2 j) rho vs v s2).
Proof.
  intros W. induction vs as [|n vs IH]; cbn [forallb]; intros Hv s1 s2 H; cbn; [apply lim_done; auto|].
  apply andb_true_iff in Hv as [Hn Hv].
  apply lim_bind; [apply write_rel; auto|]. intros. apply IH; auto.
Qed.
Lemma lit_rel l : forall s1 s2, Rs s1 s2 -> lim (eval_lit μ1 l s1) (fun j => eval_lit (μ2 j) l s2).
Proof.
  induction l as [l|ls IH] using slit_ind'; intros s1 s2 H; cbn.
  - destruct (lit_value l); [apply lim_done; auto|apply lim_stuck].
  - apply lim_bind; [eapply rm_glob; eauto|]. intros a t1 t2 Ht.
    apply lim_bind; [eapply rm_send; eauto|]. clear a t1 t2 Ht s1 s2 H. intros a s1 s2 H.
    generalize 1 as i. revert a s1 s2 H. induction IH as [|l ls Hl _ IH]; intros a s1 s2 H i; [apply lim_done; auto|].
    apply lim_bind; [apply Hl; auto|]. intros v t1 t2 Ht.
    apply lim_bind; [eapply rm_send; eauto|]. intros. apply IH; auto.
Qed.
Lemma return_rel rho v s1 s2 : (0 < depth rho -> nl (depth rho)) -> Rs s1 s2 ->
  lim (return_from μ1 rho v s1) (fun j => return_from (μ2 j) rho v s2).
Proof.
  intros Hn H. unfold return_from. destruct (depth rho); [apply lim_retn; auto|].
  apply lim_bind'; [eapply rm_nlr; eauto; apply Hn; lia|]. intros. apply lim_retn; auto.
Qed.
Lemma while_rel (t1 b1 : nat -> S1 -> out S1 X1 value) t2 b2 k n :
  (forall m s1 s2, Rs s1 s2 -> lim (t1 m s1) (fun j => t2 j m s2)) ->
  (forall m s1 s2, Rs s1 s2 -> lim (b1 m s1) (fun j => b2 j m s2)) ->
  forall s1 s2, Rs s1 s2 -> lim (repeat_while n t1 b1 k s1) (fun j => repeat_while n (t2 j) (b2 j) k s2).
Proof.
  intros Ht Hb. induction n as [|n IH]; intros s1 s2 H; cbn [repeat_while]; [apply lim_hang|].
  apply lim_bind; auto. intros v u1 u2 Hu. destruct (takes k v); [apply lim_done; auto|].
  apply lim_bind; auto.
Qed.

(** What an expression may do, given what its blocks may do. *)
Definition may (e : src) (rho : env) : Prop :=
  wr_ok rho /\
  (rets e = true -> 0 < depth rho -> nl (depth rho)) /\
  (forall b rho', In (b, rho') (created e rho) -> match b with SBlk l _ _ _ _ _ => lb l | _ => True end).
Definition may_body (ss : list src) (ret : option src) (rho : env) : Prop :=
  wr_ok rho /\
  (existsb rets ss || match ret with Some _ => true | None => false end = true -> 0 < depth rho -> nl (depth rho)) /\
  (forall b rho', In (b, rho') (created_body ss ret rho) -> match b with SBlk l _ _ _ _ _ => lb l | _ => True end).
Lemma depth_add_layer ls rho : depth (add_layer ls rho) = depth rho.
Proof. destruct rho; reflexivity. Qed.
Lemma may_body_cons e ss ret rho : may_body (e :: ss) ret rho -> may e rho /\ may_body ss ret rho.
Proof.
  intros (W & H1 & H2). split; (split; [exact W|]); split; intros.
  - apply H1; auto. cbn. rewrite H. auto.
  - eapply H2. unfold created_body. cbn. rewrite <- app_assoc. apply in_or_app. left. eauto.
  - apply H1; auto. cbn. rewrite <- orb_assoc, H. apply orb_true_r.
  - eapply H2. unfold created_body in *. cbn. rewrite <- app_assoc. apply in_or_app. right. eauto.
Qed.

Lemma wr_ok_add_layer ls rho : wr_ok rho -> wr_ok (add_layer ls rho).
Proof. intros [H1 H2]. split; [apply blocky_add_layer; auto|]. rewrite depth_add_layer. exact H2. Qed.
Lemma eval_rel : forall e, ok_src e = true ->
  (forall rho n s1 s2, may e rho -> Rs s1 s2 -> lim (eval e μ1 rho n s1) (fun j => eval e (μ2 j) rho n s2)) /\
  match e with
  | SBlk _ _ _ ss ret _ => forall rho n s1 s2, may_body ss ret rho -> Rs s1 s2 ->
      lim (eval_block ss ret μ1 rho n s1) (fun j => eval_block ss ret (μ2 j) rho n s2)
  | _ => True
  end.
Proof.
  induction e as [x|l|sup e sel args IHe IHargs|e IHe|e IHe|vs e IHe|label ps ls ss ret per IHss IHret]
    using src_ind'; intros Hok; cbn [ok_src] in Hok; repeat rewrite andb_true_iff in Hok.
  - split; auto. intros. apply read_rel; auto.
  - split; auto. intros. apply lit_rel; auto.
  - split; auto. destruct Hok as [[[Ho1 Ho2] _] _]. destruct (IHe Ho1) as [Ie Be].
    assert (IHa : forall a, In a args -> _) by
      (intros a Ha; rewrite Forall_forall in IHargs; rewrite forallb_forall in Ho2; exact (IHargs a Ha (Ho2 a Ha))).
    clear IHargs. rename IHa into IHargs.
    assert (IB : forall b, (b = e \/ In b args) -> is_block b = true -> forall rho, wr_ok rho ->
       (rets b = true -> 0 < depth rho -> nl (depth rho)) ->
       (forall c rho', In (c, rho') (created_inl b rho) -> match c with SBlk l _ _ _ _ _ => lb l | _ => True end) ->
       forall n s1 s2, Rs s1 s2 ->
       lim (eval_inline fields b μ1 rho n s1) (fun j => eval_inline fields b (μ2 j) rho n s2)).
    { intros b Hb Hbl rho W H1 H2 n s1 s2 H. destruct b; try discriminate. cbn [eval_inline].
      assert (M : may_body ss ret (add_layer ls rho)).
      { split; [apply wr_ok_add_layer; auto|]. split; [|exact H2]. rewrite depth_add_layer. exact H1. }
      destruct Hb as [Hb | Hb]; [subst e; apply Be; auto|]. apply (proj2 (IHargs _ Hb)); auto. }
    intros rho n s1 s2 (W & M1 & M2) H. rewrite eval_send.
    apply lim_ext with (c := fun j =>
      match special_form sup e sel args with
      | Some k => eval_special fields k e args (μ2 j) rho n s2
      | None => eval_message fields sup e sel args (μ2 j) rho n s2
      end); [|intros j; rewrite eval_send; auto].
    rewrite created_send in M2. cbn [rets] in M1.
    assert (Rr : rets e = true -> 0 < depth rho -> nl (depth rho)) by (intros E; apply M1; rewrite E; auto).
    assert (Ra : forall a, In a args -> rets a = true -> 0 < depth rho -> nl (depth rho)).
    { intros a Ha E. apply M1. apply orb_true_iff. right. apply existsb_exists. eauto. }
    destruct (special_form sup e sel args) as [k|] eqn:Es.
    + apply special_shape in Es. destruct Es as (-> & Es & Ha). destruct k; cbn [eval_special].
      * destruct Ha as (a & -> & Ha). apply lim_bind.
        -- apply Ie; auto. split; [auto|split; auto]. intros. eapply M2. apply in_or_app. left. eauto.
        -- intros v t1 t2 Ht. destruct (takes k v); [apply lim_done; auto|].
           apply IB; cbn; auto. apply Ra; cbn; auto. intros. eapply M2. apply in_or_app. right. cbn. rewrite app_nil_r. eauto.
      * destruct Ha as (a & b & -> & Ha & Hb). apply lim_bind.
        -- apply Ie; auto. split; [auto|split; auto]. intros. eapply M2. apply in_or_app. left. eauto.
        -- intros v t1 t2 Ht. destruct (takes k v).
           ++ apply IB; cbn; auto. apply Ra; cbn; auto. intros. eapply M2. apply in_or_app. right. cbn. rewrite app_nil_r.
              apply in_or_app. right. eauto.
           ++ apply IB; cbn; auto. apply Ra; cbn; auto. intros. eapply M2. apply in_or_app. right. cbn.
              apply in_or_app. left. eauto.
      * destruct Ha as (a & -> & Hr & Ha). apply while_rel; auto; intros; apply IB; cbn; auto.
        -- intros. eapply M2. apply in_or_app. left. eauto.
        -- apply Ra; cbn; auto.
        -- intros. eapply M2. apply in_or_app. right. cbn. rewrite app_nil_r. eauto.
      * destruct Ha as (a & -> & Ha). apply lim_bind.
        -- apply Ie; auto. split; [auto|split; auto]. intros. eapply M2. apply in_or_app. left. eauto.
        -- intros v t1 t2 Ht. destruct (takes _ v); [apply lim_done; auto|].
           apply IB; cbn; auto. apply Ra; cbn; auto. intros. eapply M2. apply in_or_app. right. cbn. rewrite app_nil_r. eauto.
    + unfold eval_message. apply lim_bind.
      * apply Ie; auto. split; [auto|split; auto]. intros. eapply M2. apply in_or_app. left. eauto.
      * intros v t1 t2 Ht. apply lim_bind.
        -- assert (IA : forall l, incl l args -> forall vs s1 s2, Rs s1 s2 ->
             lim (eval_args fields l μ1 rho n vs s1) (fun j => eval_args fields l (μ2 j) rho n vs s2)).
           { induction l as [|a l IH]; intros Hi vs u1 u2 Hu; cbn [eval_args]; [apply lim_done; auto|].
             assert (In a args) by (apply Hi; left; auto). apply lim_bind.
             - apply (IHargs a); auto. split; [auto|]. split; [apply Ra; auto|]. intros. eapply M2. apply in_or_app. right.
               apply in_flat_map. eauto.
             - intros. apply IH; auto. intros y Hy. apply Hi. right; auto. }
           apply IA; auto using incl_refl.
        -- intros. destruct sup; [eapply rm_super; eauto|eapply rm_send; eauto].
  - split; auto. intros rho n s1 s2 M H. cbn [BcSpec.eval]. apply lim_bind; [apply IHe; auto|]. intros. eapply rm_inc; eauto.
  - split; auto. intros rho n s1 s2 M H. cbn [BcSpec.eval]. apply lim_bind; [apply IHe; auto|]. intros. eapply rm_dec; eauto.
  - split; auto. destruct Hok as [Hv Hok]. intros rho n s1 s2 M H. cbn [BcSpec.eval]. apply lim_bind; [apply IHe; auto|]. intros.
    apply lim_bind'; [apply writes_rel; auto; [apply M|destruct vs; auto]|]. intros. apply lim_done; auto.
  - split.
    { intros rho n s1 s2 (_ & _ & M) H. cbn [BcSpec.eval]. eapply rm_blk; eauto.
      specialize (M (SBlk label ps ls ss ret per) rho (or_introl eq_refl)). exact M. }
    destruct Hok as [[[_ _] Ho1] Ho2].
    assert (IHa : forall a, In a ss -> _) by
      (intros a Ha; rewrite Forall_forall in IHss; rewrite forallb_forall in Ho1; exact (IHss a Ha (Ho1 a Ha))).
    clear IHss Ho1. rename IHa into IHss.
    intros rho n s1 s2 M H. revert s1 s2 M H.
    induction ss as [|e ss IH]; intros s1 s2 M H; cbn [BcSpec.eval_block].
    + destruct ret as [e|]; [|apply lim_done; auto]. cbn in IHret. destruct M as (W & M1 & M2). apply lim_bind.
      * apply IHret; auto. split; [auto|]. split; [intros _; apply M1; reflexivity|]. exact M2.
      * intros. apply return_rel; auto.
    + assert (IH' := IH (fun x Hx => IHss x (or_intror Hx))).
      apply may_body_cons in M as [Me M].
      assert (E := proj1 (IHss e (or_introl eq_refl)) rho n s1 s2 Me H).
      destruct ss, ret; auto; apply lim_bind; auto; intros; apply IH'; auto.
Qed.
Lemma eval_block_rel ss ret rho n s1 s2 : forallb ok_src ss = true -> ok_ret ret = true -> may_body ss ret rho -> Rs s1 s2 ->
  lim (eval_block ss ret μ1 rho n s1) (fun j => eval_block ss ret (μ2 j) rho n s2).
Proof.
  intros H1 H2. refine (proj2 (eval_rel (SBlk 0 [] [] ss ret false) _) rho n s1 s2). cbn. rewrite H1. exact H2.
Qed.
Lemma eval_closure_rel l ps ls ss ret per rho n s1 s2 :
  forallb ok_src ss = true -> ok_ret ret = true -> may_body ss ret (add_level ps ls rho) -> Rs s1 s2 ->
  lim (eval_closure fields (SBlk l ps ls ss ret per) rho μ1 n s1)
      (fun j => eval_closure fields (SBlk l ps ls ss ret per) rho (μ2 j) n s2).
Proof.
  intros O1 O2 M H. cbn [eval_closure]. apply lim_bind'; [apply eval_block_rel; auto|]. intros. apply lim_retn; auto.
Qed.
Lemma eval_method_rel ss ret rho n : wr_ok rho -> forallb ok_src ss = true -> ok_ret ret = true -> forall s1 s2,
  (forall b rho', In (b, rho') (created_body ss ret rho) -> match b with SBlk l _ _ _ _ _ => lb l | _ => True end) ->
  depth rho = 0 -> Rs s1 s2 ->
  lim (eval_method fields ss ret μ1 rho n s1) (fun j => eval_method fields ss ret (μ2 j) rho n s2).
Proof.
  intros W. induction ss as [|e ss IH]; cbn [forallb]; intros O1 O2 s1 s2 M D H; cbn [eval_method].
  - destruct ret as [e|].
    + apply lim_bind'; [|intros; apply lim_retn; auto]. apply (proj1 (eval_rel e O2)); auto.
      split; [auto|]. split; [intros _ ?; lia|]. exact M.
    + apply lim_bind'; [|intros; apply lim_retn; auto]. eapply rm_rd; eauto.
  - apply andb_true_iff in O1 as [O1 O1']. apply lim_bind.
    + apply (proj1 (eval_rel e O1)); auto. split; [auto|]. split; [intros _ ?; lia|]. intros. eapply M. unfold created_body.
      cbn. rewrite <- app_assoc. apply in_or_app. left. eauto.
    + intros. apply IH; auto. intros. eapply M. unfold created_body in *. cbn. rewrite <- app_assoc.
      apply in_or_app. right. eauto.
Qed.
End Eval.

(** The bytecode loop. *)
Section Run.
Variable μ1 : machine S1 X1.
Variable μ2 : nat -> machine S2 X2.
Hypothesis HM : rel_machine (fun _ => True) (fun _ => True) (fun _ _ => True) μ1 μ2.
Variables (cap : nat) (chain : list (list nat)) (lits : list literal) (bs : list nat).

Lemma push_rel v pc st s1 s2 : Rs s1 s2 -> lim (push cap v pc st s1) (fun _ => push cap v pc st s2).
Proof. intros. unfold push. destruct (length st <? cap); [apply lim_done; auto|apply lim_stuck]. Qed.
Lemma need_rel {A B} (o : option A) (f : A -> out S1 X1 B) g :
  (forall a, lim (f a) (fun j => g j a)) -> lim (need o f) (fun j => need o (g j)).
Proof. intros. destruct o; cbn; auto. apply lim_stuck. Qed.
Lemma pop_rel {B} st (f : value -> list value -> out S1 X1 B) g :
  (forall v r, lim (f v r) (fun j => g j v r)) -> lim (pop st f) (fun j => pop st (g j)).
Proof. intros. destruct st; cbn; auto. apply lim_stuck. Qed.
Lemma do_send_rel f g n sel pc st s1 s2 :
  (forall t l s1 s2, Rs s1 s2 -> lim (f t l s1) (fun j => g j t l s2)) -> Rs s1 s2 ->
  lim (do_send cap f n sel pc st s1) (fun j => do_send cap (g j) n sel pc st s2).
Proof.
  intros F H. unfold do_send, popn. destruct (n <=? length st); [|apply lim_stuck].
  apply lim_bind'; auto. intros. apply push_rel; auto.
Qed.
Ltac go H :=
  first [ apply lim_stuck | apply lim_done; exact H | apply lim_retn; exact H | apply push_rel; exact H
        | apply need_rel; intros; go H | apply pop_rel; intros; go H
        | apply do_send_rel; [intros; eapply rm_send; eauto|exact H]
        | apply do_send_rel; [intros; eapply rm_super; eauto|exact H]
        | apply lim_bind'; [first [eapply rm_rd; eauto|eapply rm_wr; eauto|eapply rm_getf; eauto|eapply rm_setf; eauto
            |eapply rm_incf; eauto|eapply rm_inc; eauto|eapply rm_dec; eauto|eapply rm_nlr; eauto|eapply rm_blk; eauto
            |eapply rm_glob; eauto]|let H' := fresh in intros ? ? ? H'; go H'] ].
Lemma step_rel pc st s1 s2 : Rs s1 s2 ->
  lim (step μ1 cap chain lits bs pc st s1) (fun j => step (μ2 j) cap chain lits bs pc st s2).
Proof.
  intros H. unfold step. apply need_rel. intros n. apply need_rel. intros b. cbv zeta.
  destruct (jump_form b) as [[k wide]|].
  - apply need_rel. intros x. apply need_rel. intros y. destruct k.
    + go H.
    + apply pop_rel. intros v r. destruct (takes c v); go H.
    + apply pop_rel. intros v r. destruct (takes c v); go H.
    + destruct (_ <=? pc); go H.
  - destruct b; go H; exact I.
Qed.
Lemma run_rel k : forall pc st s1 s2, Rs s1 s2 ->
  lim (run μ1 cap chain lits bs k pc st s1) (fun j => run (μ2 j) cap chain lits bs k pc st s2).
Proof.
  induction k as [|k IH]; intros pc st s1 s2 H; cbn [run]; [apply lim_hang|].
  apply lim_bind; [apply step_rel; auto|]. intros. apply IH; auto.
Qed.
End Run.
End Rel.
