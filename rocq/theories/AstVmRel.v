(** Evaluating the same source with operations that correspond gives corresponding outcomes,
    unless an exception meant as an alarm is raised. *)
From Coq Require Import ZArith Bool String Ascii List Lia.
From Verif Require Import Base LexModel ParseModel BcModel BcInterp BcSpec BcTab BcCode BcEval VmModel VmSpec VmRel AstModel AstSpec AstNode.
Import ListNotations.
Open Scope nat_scope.
Open Scope list_scope.

(** [g j] is at least [n] from some [j] on. *)
Definition far (n : nat) (g : nat -> nat) : Prop := exists J, forall j, J <= j -> n <= g j.
Lemma far_const n : far n (fun _ => n).
Proof. exists 0. auto. Qed.
Lemma far_pred n g : far (Datatypes.S n) g -> far n (fun j => pred (g j)).
Proof. intros [J H]. exists J. intros j Hj. specialize (H j Hj). lia. Qed.
Section Rel.
Context {S1 X1 S2 X2 : Type}.
Variable Rs : S1 -> S2 -> Prop.
Variable Rx : X1 -> X2 -> S1 -> S2 -> Prop.
(** Being stuck is a reason not to correspond, for the first and for the second. *)
Variables al1 al2 : Prop.
Notation rel_out := (rel_out Rs Rx).

(** [c] settles on an outcome that corresponds to [o], unless [o] is no outcome or an alarm. *)
Definition limz {A} (o : out S1 X1 A) (c : nat -> out S2 X2 A) : Prop :=
  o = Hang \/ (al1 /\ o = Stuck) \/ exists o2 J, (forall j, J <= j -> c j = o2) /\ ((al2 /\ o2 = Stuck) \/ rel_out o o2).
Lemma limz_lim {A} (o : out S1 X1 A) c : lim Rs Rx o c -> limz o c.
Proof. intros [H|(o2 & J & H & R)]; [left; auto|right; right; eauto]. Qed.
Lemma limz_ext {A} (o : out S1 X1 A) c c' : limz o c -> (forall j, c j = c' j) -> limz o c'.
Proof.
  intros [H|[H|(o2 & J & H & R)]] E; [left; auto|right; left; auto|right; right]. exists o2, J. split; auto.
  intros j Hj. rewrite <- E. auto.
Qed.
Lemma limz_late {A} (o : out S1 X1 A) c c' K : limz o c -> (forall j, K <= j -> c j = c' j) -> limz o c'.
Proof.
  intros [H|[H|(o2 & J & H & R)]] E; [left; auto|right; left; auto|right; right]. exists o2, (J + K). split; auto.
  intros j Hj. rewrite <- E by lia. apply H. lia.
Qed.
Lemma limz_rel {A} (o : out S1 X1 A) o2 : rel_out o o2 -> limz o (fun _ => o2).
Proof. intros H. right. right. exists o2, 0. auto. Qed.
Lemma limz_done {A} (a : A) s1 s2 : Rs s1 s2 -> limz (Done a s1) (fun _ => Done a s2).
Proof. intros. apply limz_rel. constructor. auto. Qed.
Lemma limz_retn {A} v s1 s2 : Rs s1 s2 -> @limz A (Retn v s1) (fun _ => Retn v s2).
Proof. intros. apply limz_rel. constructor. auto. Qed.
Lemma limz_stuck {A} : @limz A Stuck (fun _ => Stuck).
Proof. apply limz_rel. constructor. Qed.
Lemma limz_hang {A} c : @limz A Hang c.
Proof. left. auto. Qed.
Lemma limz_alarm1 {A} c : al1 -> @limz A Stuck c.
Proof. intros. right. left. auto. Qed.
Lemma limz_alarm2 {A} o : al2 -> @limz A o (fun _ => Stuck).
Proof. intros. right. right. exists Stuck, 0. auto. Qed.
Lemma limz_bind {A B} (o : out S1 X1 A) c (f : A -> S1 -> out S1 X1 B) g :
  limz o c -> (forall a s1 s2, Rs s1 s2 -> limz (f a s1) (fun j => g j a s2)) ->
  limz (bind o f) (fun j => bind (c j) (g j)).
Proof.
  intros [-> |[[Ha ->]|(o2 & J & H & [[Ha ->]|R])]] F; [left; auto|right; left; auto| |].
  { right. right. exists Stuck, J. split; auto. intros j Hj. rewrite H by lia. auto. }
  destruct R as [a s1 s2 R|v s1 s2 R|x1 x2 s1 s2 R|].
  - destruct (F a s1 s2 R) as [E |[E|(o3 & J' & H' & R')]]; [left; auto|right; left; auto|right; right].
    exists o3, (J + J'). split; auto. intros j Hj. rewrite H by lia. cbn. apply H'. lia.
  - right. right. exists (Retn v s2), J. split; [|right; constructor; auto]. intros j Hj. rewrite H by lia. auto.
  - right. right. exists (Abrupt x2 s2), J. split; [|right; constructor; auto]. intros j Hj. rewrite H by lia. auto.
  - right. right. exists Stuck, J. split; [|right; constructor; auto]. intros j Hj. rewrite H by lia. auto.
Qed.
Lemma limz_bind' {A B} (o : out S1 X1 A) c (f : A -> S1 -> out S1 X1 B) g :
  limz o c -> (forall a s1 s2, Rs s1 s2 -> limz (f a s1) (fun _ => g a s2)) ->
  limz (bind o f) (fun j => bind (c j) g).
Proof. intros H F. apply (limz_bind o c f (fun _ => g) H F). Qed.

(** The operations correspond, as far as they are used: [nl] are the levels of returns out of
    blocks, [lb] the numbers of the blocks, [wr] the variables that are assigned, [d] the level
    of self. *)
Record rel_ops (d : nat) (nl lb : nat -> Prop) (wr : nat -> vref -> Prop) (o1 : ops S1 X1) (o2 : nat -> ops S2 X2) : Prop := {
  ro_send : forall t l s1 s2, Rs s1 s2 -> limz (o_send o1 t l s1) (fun j => o_send (o2 j) t l s2);
  ro_ready : forall t s1 s2, Rs s1 s2 -> limz (o_ready o1 t s1) (fun j => o_ready (o2 j) t s2);
  ro_super : forall t l s1 s2, Rs s1 s2 -> limz (o_super o1 t l s1) (fun j => o_super (o2 j) t l s2);
  ro_glob : forall t s1 s2, Rs s1 s2 -> limz (o_glob o1 t s1) (fun j => o_glob (o2 j) t s2);
  ro_unk : forall k t s1 s2, Rs s1 s2 -> limz (o_unk o1 k d t s1) (fun j => o_unk (o2 j) k d t s2);
  ro_blk : forall l s1 s2, lb l -> Rs s1 s2 -> limz (o_blk o1 l s1) (fun j => o_blk (o2 j) l s2);
  ro_rd : forall k v s1 s2, Rs s1 s2 -> limz (o_rd o1 k v s1) (fun j => o_rd (o2 j) k v s2);
  ro_wr : forall k v x s1 s2, wr k v -> Rs s1 s2 -> limz (o_wr o1 k v x s1) (fun j => o_wr (o2 j) k v x s2);
  ro_getf : forall k i s1 s2, Rs s1 s2 -> limz (o_getf o1 k i s1) (fun j => o_getf (o2 j) k i s2);
  ro_setf : forall k i v s1 s2, Rs s1 s2 -> limz (o_setf o1 k i v s1) (fun j => o_setf (o2 j) k i v s2);
  ro_inc : forall v s1 s2, Rs s1 s2 -> limz (o_inc o1 v s1) (fun j => o_inc (o2 j) v s2);
  ro_dec : forall v s1 s2, Rs s1 s2 -> limz (o_dec o1 v s1) (fun j => o_dec (o2 j) v s2);
  ro_plus : forall v s1 s2, Rs s1 s2 -> limz (o_plus o1 v s1) (fun j => o_plus (o2 j) v s2);
  ro_arr : forall ls s1 s2, Rs s1 s2 -> limz (o_arr o1 ls s1) (fun j => o_arr (o2 j) ls s2);
  ro_test : forall a k v s1 s2, Rs s1 s2 -> limz (o_test o1 a k v s1) (fun j => o_test (o2 j) a k v s2);
  ro_home : forall k v s1 s2, nl k -> Rs s1 s2 -> limz (o_home o1 k v s1) (fun j => o_home (o2 j) k v s2) }.

Section Eval.
Variable ce : cenv.
Variable one : bool.
Variable d : nat.
Variables nl lb : nat -> Prop.
Variable wr : nat -> vref -> Prop.
Variable o1 : ops S1 X1.
Variable o2 : nat -> ops S2 X2.
Hypothesis HM : rel_ops d nl lb wr o1 o2.
Hypothesis Hrev : one = false -> forall j, o_rev (o2 j) = o_rev o1.
Notation wr_ok := (wr_ok wr).

Lemma oread_rel rho n s1 s2 : depth rho = d -> Rs s1 s2 ->
  limz (o_read ce o1 rho n s1) (fun j => o_read ce (o2 j) rho n s2).
Proof.
  intros Hd H. unfold o_read. destruct (resolve n rho) as [[k v]|]; [eapply ro_rd; eauto|].
  destruct (position n _); [eapply ro_getf; eauto|].
  destruct (text_eqb n t_nil); [apply limz_done; auto|].
  destruct (text_eqb n t_true); [apply limz_done; auto|].
  destruct (text_eqb n t_false); [apply limz_done; auto|].
  destruct (ce_known ce n); [eapply ro_glob; eauto|]. rewrite Hd. eapply ro_unk; eauto.
Qed.
Lemma owrite_rel rho n v s1 s2 : wr_ok rho -> name_ok n = true -> Rs s1 s2 ->
  limz (o_write ce o1 rho n v s1) (fun j => o_write ce (o2 j) rho n v s2).
Proof.
  intros [W1 W2] Hn H. unfold o_write. destruct (resolve n rho) as [[k x]|] eqn:E.
  { eapply ro_wr; eauto. apply W2. eapply resolve_assignable; eauto. }
  destruct (position n _); [eapply ro_setf; eauto|]. apply limz_stuck.
Qed.
Lemma owrites_rel rho vs v : wr_ok rho -> (forall x, In x vs -> name_ok x = true) -> forall s1 s2, Rs s1 s2 ->
  limz (o_writes ce o1 rho vs v s1) (fun j => o_writes ce (o2 j) rho vs v s2).
Proof.
  intros W. induction vs as [|n vs IH]; intros Hv s1 s2 H; cbn [o_writes]; [apply limz_done; auto|].
  apply limz_bind; [apply owrite_rel; auto; apply Hv; left; auto|]. intros. apply IH; auto. intros x Hx. apply Hv. right; auto.
Qed.
Lemma olit_rel l s1 s2 : Rs s1 s2 -> limz (o_lit o1 l s1) (fun j => o_lit (o2 j) l s2).
Proof.
  intros H. destruct l as [l|ls]; cbn [o_lit]; [|eapply ro_arr; eauto].
  destruct (lit_value l); cbn; [apply limz_done; auto|apply limz_stuck].
Qed.
Lemma oreturn_rel rho v s1 s2 : (0 < depth rho -> nl (depth rho)) -> Rs s1 s2 ->
  limz (o_return o1 rho v s1) (fun j => o_return (o2 j) rho v s2).
Proof.
  intros Hn H. unfold o_return. destruct (depth rho); [apply limz_retn; auto|]. eapply ro_home; eauto. apply Hn. lia.
Qed.
Lemma owhile_rel (t1 b1 : nat -> S1 -> out S1 X1 value) t2 b2 k n :
  (forall m g s1 s2, far m g -> Rs s1 s2 -> limz (t1 m s1) (fun j => t2 j (g j) s2)) ->
  (forall m g s1 s2, far m g -> Rs s1 s2 -> limz (b1 m s1) (fun j => b2 j (g j) s2)) ->
  forall g s1 s2, far n g -> Rs s1 s2 -> limz (o_while o1 n t1 b1 k s1) (fun j => o_while (o2 j) (g j) (t2 j) (b2 j) k s2).
Proof.
  intros Ht Hb. induction n as [|n IH]; intros g s1 s2 Hg H; cbn [o_while]; [apply limz_hang|].
  destruct Hg as [K Hg]. apply limz_late with (K := K) (c := fun j =>
    bind (t2 j (g j) s2) (fun v s => bind (o_test (o2 j) false k v s) (fun t s =>
    if t then Done VNil s else bind (b2 j (g j) s) (fun _ s => o_while (o2 j) (pred (g j)) (t2 j) (b2 j) k s)))).
  2:{ intros j Hj. specialize (Hg j Hj). destruct (g j) as [|m]; [lia|]. reflexivity. }
  assert (Hf : far (Datatypes.S n) g) by (exists K; auto).
  apply limz_bind; [apply Ht; auto|]. intros v u1 u2 Hu. apply limz_bind; [eapply ro_test; eauto|].
  intros c w1 w2 Hw. destruct c; [apply limz_done; auto|].
  apply limz_bind; [apply Hb; auto|]. intros. apply IH; auto. apply far_pred. exact Hf.
Qed.

Definition okay (e : src) (rho : env) : Prop := may nl lb wr e rho /\ depth rho = d.
Definition okay_body (ss : list src) (ret : option src) (rho : env) : Prop := may_body nl lb wr ss ret rho /\ depth rho = d.
Lemma oeval_rel : forall e, ok_src e = true -> (one = true -> single e = true) ->
  (forall rho n g s1 s2, far n g -> okay e rho -> Rs s1 s2 -> limz (oeval ce o1 e rho n s1) (fun j => oeval ce (o2 j) e rho (g j) s2)) /\
  match e with
  | SBlk _ _ _ ss ret _ => forall rho n g s1 s2, far n g -> okay_body ss ret rho -> Rs s1 s2 ->
      limz (oeval_block ce o1 ss ret rho n s1) (fun j => oeval_block ce (o2 j) ss ret rho (g j) s2)
  | _ => True
  end.
Proof.
  induction e as [x|l|sup e sel args IHe IHargs|e IHe|e IHe|vs e IHe|label ps ls ss ret per IHss IHret]
    using src_ind'; intros Hok Hone; cbn [ok_src] in Hok; repeat rewrite andb_true_iff in Hok.
  - split; auto. intros rho n g s1 s2 _ [_ Hd] H. cbn [oeval]. apply oread_rel; auto.
  - split; auto. intros. cbn [oeval]. apply olit_rel; auto.
  - split; auto. destruct Hok as [[[Ho1 Ho2] _] _].
    assert (Hone1 : one = true -> single e = true) by (intros E; specialize (Hone E); cbn [single] in Hone; apply andb_true_iff in Hone; tauto).
    assert (Hone2 : forall a, In a args -> one = true -> single a = true).
    { intros a Ha E; specialize (Hone E); cbn [single] in Hone; apply andb_true_iff in Hone. destruct Hone as [_ Hs]. rewrite forallb_forall in Hs. auto. }
    destruct (IHe Ho1 Hone1) as [Ie Be].
    assert (IHa : forall a, In a args -> _) by
      (intros a Ha; rewrite Forall_forall in IHargs; rewrite forallb_forall in Ho2; exact (IHargs a Ha (Ho2 a Ha) (Hone2 a Ha))).
    clear IHargs. rename IHa into IHargs.
    assert (IB : forall b, (b = e \/ In b args) -> is_block b = true -> forall rho, wr_ok rho -> depth rho = d ->
       (rets b = true -> 0 < depth rho -> nl (depth rho)) ->
       (forall c rho', In (c, rho') (created_inl b rho) -> match c with SBlk l _ _ _ _ _ => lb l | _ => True end) ->
       forall n g s1 s2, far n g -> Rs s1 s2 ->
       limz (o_inline ce o1 b rho n s1) (fun j => o_inline ce (o2 j) b rho (g j) s2)).
    { intros b Hb Hbl rho W Hd H1 H2 n g s1 s2 Hg H. destruct b; try discriminate. cbn [o_inline].
      assert (M : okay_body ss ret (add_layer ls rho)).
      { split; [|rewrite depth_add_layer; auto]. split; [apply wr_ok_add_layer; auto|]. split; [|exact H2]. rewrite depth_add_layer. exact H1. }
      destruct Hb as [Hb | Hb]; [subst e; apply Be; auto|]. apply (proj2 (IHargs _ Hb)); auto. }
    intros rho n g s1 s2 Hg ((W & M1 & M2) & Hd) H. rewrite oeval_send.
    apply limz_ext with (c := fun j =>
      match special_form sup e sel args with
      | Some k => o_special ce (o2 j) k e args rho (g j) s2
      | None => o_message ce (o2 j) sup e sel args rho (g j) s2
      end); [|intros j; rewrite oeval_send; auto].
    rewrite created_send in M2. cbn [rets] in M1.
    assert (Rr : rets e = true -> 0 < depth rho -> nl (depth rho)) by (intros E; apply M1; rewrite E; auto).
    assert (Ra : forall a, In a args -> rets a = true -> 0 < depth rho -> nl (depth rho)).
    { intros a Ha E. apply M1. apply orb_true_iff. right. apply existsb_exists. eauto. }
    destruct (special_form sup e sel args) as [k|] eqn:Es.
    + apply special_shape in Es. destruct Es as (-> & Es & Ha). destruct k; cbn [o_special].
      * destruct Ha as (a & -> & Ha). apply limz_bind.
        -- apply Ie; auto. split; [split; [auto|split; auto]|auto]. intros. eapply M2. apply in_or_app. left. eauto.
        -- intros v t1 t2 Ht. apply limz_bind; [eapply ro_test; eauto|]. intros b u1 u2 Hu. destruct b; [apply limz_done; auto|].
           apply IB; cbn; auto. apply Ra; cbn; auto. intros. eapply M2. apply in_or_app. right. cbn. rewrite app_nil_r. eauto.
      * destruct Ha as (a & b & -> & Ha & Hb). apply limz_bind.
        -- apply Ie; auto. split; [split; [auto|split; auto]|auto]. intros. eapply M2. apply in_or_app. left. eauto.
        -- intros v t1 t2 Ht. apply limz_bind; [eapply ro_test; eauto|]. intros c u1 u2 Hu. destruct c.
           ++ apply IB; cbn; auto. apply Ra; cbn; auto. intros. eapply M2. apply in_or_app. right. cbn. rewrite app_nil_r.
              apply in_or_app. right. eauto.
           ++ apply IB; cbn; auto. apply Ra; cbn; auto. intros. eapply M2. apply in_or_app. right. cbn.
              apply in_or_app. left. eauto.
      * destruct Ha as (a & -> & Hr & Ha). apply owhile_rel; auto; intros; apply IB; cbn; auto.
        -- intros. eapply M2. apply in_or_app. left. eauto.
        -- apply Ra; cbn; auto.
        -- intros. eapply M2. apply in_or_app. right. cbn. rewrite app_nil_r. eauto.
      * destruct Ha as (a & -> & Ha). apply limz_bind.
        -- apply Ie; auto. split; [split; [auto|split; auto]|auto]. intros. eapply M2. apply in_or_app. left. eauto.
        -- intros v t1 t2 Ht. apply limz_bind; [eapply ro_test; eauto|]. intros c u1 u2 Hu. destruct c; [apply limz_done; auto|].
           apply IB; cbn; auto. apply Ra; cbn; auto. intros. eapply M2. apply in_or_app. right. cbn. rewrite app_nil_r. eauto.
    + assert (Oe : okay e rho).
      { split; [split; [auto|split; auto]|auto]. intros. eapply M2. apply in_or_app. left. eauto. }
      unfold o_message. destruct (adds_one sup sel args).
      { apply limz_bind; [apply Ie; auto|]. intros. eapply ro_plus; eauto. }
      apply limz_bind; [destruct sup; [eapply ro_ready; eauto|apply limz_done; auto]|]. intros _ w1 w2 Hw.
      apply limz_bind; [apply Ie; auto|].
      intros v t1 t2 Ht. apply limz_bind.
        -- assert (IA : forall l, incl l args -> forall vs s1 s2, Rs s1 s2 ->
             limz (o_args ce o1 l rho n vs s1) (fun j => o_args ce (o2 j) l rho (g j) vs s2)).
           { induction l as [|a l IH]; intros Hi vs u1 u2 Hu; cbn [o_args]; [apply limz_done; auto|].
             assert (In a args) by (apply Hi; left; auto). apply limz_bind.
             - apply (IHargs a); auto. split; [|auto]. split; [auto|]. split; [apply Ra; auto|]. intros. eapply M2. apply in_or_app. right.
               apply in_flat_map. eauto.
             - intros. apply IH; auto. intros y Hy. apply Hi. right; auto. }
           apply IA; auto using incl_refl.
        -- intros. destruct sup; [eapply ro_super; eauto|eapply ro_send; eauto].
  - split; auto. intros rho n g s1 s2 Hg M H. cbn [oeval]. apply limz_bind; [apply IHe; auto|]. intros. eapply ro_inc; eauto.
  - split; auto. intros rho n g s1 s2 Hg M H. cbn [oeval]. apply limz_bind; [apply IHe; auto|]. intros. eapply ro_dec; eauto.
  - split; auto. destruct Hok as [Hv Hok]. intros rho n g s1 s2 Hg M H. cbn [oeval].
    assert (Hone1 : one = true -> single e = true /\ length vs <= 1).
    { intros E. specialize (Hone E). cbn [single] in Hone. apply andb_true_iff in Hone. destruct Hone as [L Q]. apply Nat.leb_le in L. auto. }
    apply limz_bind; [apply IHe; auto; intros E; apply Hone1; auto|]. intros v t1 t2 Ht.
    assert (Hvs : forall x, In x vs -> name_ok x = true).
    { destruct vs; [intros x []|]. rewrite forallb_forall in Hv. auto. }
    apply limz_bind'; [|intros; apply limz_done; auto].
    assert (W : wr_ok rho) by apply M.
    destruct one eqn:Eo.
    + destruct (Hone1 eq_refl) as [_ L]. assert (Er : rev vs = vs) by (destruct vs as [|x [|y vs]]; [reflexivity|reflexivity|cbn in L; lia]).
      rewrite Er. assert (E1 : (if o_rev o1 then vs else vs) = vs) by (destruct (o_rev o1); auto). rewrite E1.
      eapply limz_ext; [apply owrites_rel; eauto|]. intros j. destruct (o_rev (o2 j)); auto.
    + eapply limz_ext with (c := fun j => o_writes ce (o2 j) rho (if o_rev o1 then rev vs else vs) v t2).
      * apply owrites_rel; auto. destruct (o_rev o1); auto. intros x Hx. apply Hvs. apply in_rev. exact Hx.
      * intros j. rewrite (Hrev eq_refl). reflexivity.
  - split.
    { intros rho n g s1 s2 _ ((_ & _ & M) & _) H. cbn [oeval]. eapply ro_blk; eauto.
      specialize (M (SBlk label ps ls ss ret per) rho (or_introl eq_refl)). exact M. }
    destruct Hok as [[[_ _] Ho1] Ho2].
    assert (Hone1 : one = true -> forallb single ss = true /\ match ret with Some e => single e | None => true end = true).
    { intros E. specialize (Hone E). cbn [single] in Hone. apply andb_true_iff in Hone. exact Hone. }
    assert (Hone2 : forall a, In a ss -> one = true -> single a = true).
    { intros a Ha E. destruct (Hone1 E) as [Hs _]. rewrite forallb_forall in Hs. auto. }
    assert (IHa : forall a, In a ss -> _) by
      (intros a Ha; rewrite Forall_forall in IHss; rewrite forallb_forall in Ho1; exact (IHss a Ha (Ho1 a Ha) (Hone2 a Ha))).
    clear IHss Ho1 Hone2. rename IHa into IHss.
    assert (IHr : match ret with Some e => forall rho n g s1 s2, far n g -> okay e rho -> Rs s1 s2 -> limz (oeval ce o1 e rho n s1) (fun j => oeval ce (o2 j) e rho (g j) s2) | None => True end).
    { destruct ret as [e|]; auto. apply IHret; auto. intros E. apply (Hone1 E). }
    clear Hone Hone1.
    intros rho n g s1 s2 Hg M H. revert s1 s2 M H.
    induction ss as [|e ss IH]; intros s1 s2 M H; cbn [oeval_block].
    + destruct ret as [e|]; [|apply limz_done; auto]. destruct M as ((W & M1 & M2) & Hd). apply limz_bind.
      * apply IHr; auto. split; auto. split; [auto|]. split; [intros _; apply M1; reflexivity|]. exact M2.
      * intros. apply oreturn_rel; auto.
    + assert (IH' := IH (fun x Hx => IHss x (or_intror Hx))).
      destruct M as [M Hd]. apply may_body_cons in M as [Me M].
      assert (E := proj1 (IHss e (or_introl eq_refl)) rho n g s1 s2 Hg (conj Me Hd) H).
      destruct ss, ret; auto; apply limz_bind; auto; intros; apply IH'; auto; split; auto.
Qed.
Lemma oeval_block_rel ss ret rho n g s1 s2 : far n g -> forallb ok_src ss = true -> ok_ret ret = true ->
  (one = true -> forallb single ss = true /\ single_ret ret = true) -> okay_body ss ret rho -> Rs s1 s2 ->
  limz (oeval_block ce o1 ss ret rho n s1) (fun j => oeval_block ce (o2 j) ss ret rho (g j) s2).
Proof.
  intros Hg H1 H2 H3. refine (proj2 (oeval_rel (SBlk 0 [] [] ss ret false) _ _) rho n g s1 s2 Hg).
  - cbn. rewrite H1. exact H2.
  - intros E. destruct (H3 E) as [A B]. cbn [single]. rewrite A. exact B.
Qed.
Lemma oeval_closure_rel l ps ls ss ret per rho n g s1 s2 : far n g ->
  forallb ok_src ss = true -> ok_ret ret = true -> (one = true -> single (SBlk l ps ls ss ret per) = true) ->
  okay_body ss ret (add_level ps ls rho) -> Rs s1 s2 ->
  limz (oeval_closure ce o1 (SBlk l ps ls ss ret per) rho n s1)
      (fun j => oeval_closure ce (o2 j) (SBlk l ps ls ss ret per) rho (g j) s2).
Proof.
  intros Hg O1 O2 O3 M H. cbn [oeval_closure]. apply limz_bind'; [apply oeval_block_rel; auto|intros; apply limz_retn; auto].
  intros E. specialize (O3 E). cbn [single] in O3. apply andb_true_iff in O3. exact O3.
Qed.
Lemma oeval_method_rel ss ret rho n g : far n g -> wr_ok rho -> forallb ok_src ss = true -> ok_ret ret = true ->
  (one = true -> forallb single ss = true /\ single_ret ret = true) -> forall s1 s2,
  (forall b rho', In (b, rho') (created_body ss ret rho) -> match b with SBlk l _ _ _ _ _ => lb l | _ => True end) ->
  depth rho = 0 -> d = 0 -> Rs s1 s2 ->
  limz (oeval_method ce o1 ss ret rho n s1) (fun j => oeval_method ce (o2 j) ss ret rho (g j) s2).
Proof.
  intros Hg W O1 O2 O3 s1 s2 M D Hd H. revert O1 O3 s1 s2 M H.
  induction ss as [|e ss IH]; cbn [forallb]; intros O1 O3 s1 s2 M H; cbn [oeval_method].
  - destruct ret as [e|].
    + apply limz_bind'; [|intros; apply limz_retn; auto].
      assert (Q : one = true -> single e = true) by (intros E; apply (O3 E)).
      apply (proj1 (oeval_rel e O2 Q)); auto.
      split; [|lia]. split; [auto|]. split; [intros _ ?; lia|]. exact M.
    + apply limz_bind'; [|intros; apply limz_retn; auto]. eapply ro_rd; eauto.
  - apply andb_true_iff in O1 as [O1 O1'].
    assert (Q : one = true -> single e = true /\ forallb single ss = true /\ single_ret ret = true).
    { intros E. destruct (O3 E) as [A B]. apply andb_true_iff in A. tauto. }
    apply limz_bind.
    + assert (Q1 : one = true -> single e = true) by (intros E; apply Q; auto).
      apply (proj1 (oeval_rel e O1 Q1)); auto. split; [|lia]. split; [auto|]. split; [intros _ ?; lia|]. intros. eapply M. unfold created_body.
      cbn. rewrite <- app_assoc. apply in_or_app. left. eauto.
    + intros. apply IH; auto; [intros E; apply Q; auto|]. intros. eapply M. unfold created_body in *. cbn. rewrite <- app_assoc.
      apply in_or_app. right. eauto.
Qed.
End Eval.
End Rel.
