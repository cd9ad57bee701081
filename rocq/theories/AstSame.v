(** Where a careful run does not stop, both interpreters do the same. *)
From Coq Require Import ZArith Bool String Ascii List Lia Permutation.
From Verif Require Import Base LexModel ParseModel BcModel BcInterp BcSpec BcCode BcEval BcTab
  AstModel AstSpec AstNode AstMerge.
Import ListNotations.
Open Scope nat_scope.
Open Scope list_scope.

Section Same.
Context {S X : Type}.
(** The same, or stopped. *)
Definition upto {A} (c : out S (option X) A) (b : out S X A) : Prop := c = up b \/ exists s, c = Abrupt None s.
Lemma upto_up {A} (b : out S X A) : upto (up b) b.
Proof. left. reflexivity. Qed.
Lemma upto_done {A} (a : A) s : upto (Done a s) (Done a s).
Proof. left. reflexivity. Qed.
Lemma upto_alarm {A} s (b : out S X A) : upto (alarm s) b.
Proof. right. exists s. reflexivity. Qed.
Lemma upto_bind {A B} (c : out S (option X) A) (b : out S X A) (f : A -> S -> out S (option X) B) g :
  upto c b -> (forall a s, upto (f a s) (g a s)) -> upto (bind c f) (bind b g).
Proof.
  intros [-> | [s ->]] H; [|right; exists s; reflexivity]. destruct b; cbn [up bind]; auto; left; reflexivity.
Qed.
(** [oc] is as [o] where it does not stop; self is [d] levels out. *)
Record near (oc : ops S (option X)) (o : ops S X) (d : nat) : Prop := {
  nr_send : forall t l s, upto (o_send oc t l s) (o_send o t l s);
  nr_ready : forall t s, upto (o_ready oc t s) (o_ready o t s);
  nr_super : forall t l s, upto (o_super oc t l s) (o_super o t l s);
  nr_glob : forall t s, upto (o_glob oc t s) (o_glob o t s);
  nr_unk : forall k t s, upto (o_unk oc k d t s) (o_unk o k d t s);
  nr_blk : forall l s, upto (o_blk oc l s) (o_blk o l s);
  nr_rd : forall k v s, upto (o_rd oc k v s) (o_rd o k v s);
  nr_wr : forall k v x s, upto (o_wr oc k v x s) (o_wr o k v x s);
  nr_getf : forall k i s, upto (o_getf oc k i s) (o_getf o k i s);
  nr_setf : forall k i x s, upto (o_setf oc k i x s) (o_setf o k i x s);
  nr_inc : forall v s, upto (o_inc oc v s) (o_inc o v s);
  nr_dec : forall v s, upto (o_dec oc v s) (o_dec o v s);
  nr_plus : forall v s, upto (o_plus oc v s) (o_plus o v s);
  nr_arr : forall ls s, upto (o_arr oc ls s) (o_arr o ls s);
  nr_test : forall a k v s, upto (o_test oc a k v s) (o_test o a k v s);
  nr_home : forall k v s, upto (o_home oc k v s) (o_home o k v s);
  nr_rev : o_rev oc = false }.
Lemma near_bc μ d : agree μ d -> near (careful_ops μ) (bc_ops (a_mach μ)) d.
Proof.
  intros H. constructor; cbn [careful_ops bc_ops o_send o_ready o_super o_glob o_unk o_blk o_rd o_wr o_getf o_setf o_inc o_dec o_plus o_arr o_test o_home o_rev];
    intros; try apply upto_up; auto.
  - destruct (a_super μ t s); [apply upto_done|apply upto_alarm].
  - destruct (k =? d); [apply upto_up|apply upto_alarm].
  - destruct (small v); [apply upto_up|apply upto_alarm].
  - destruct (small v) eqn:E; [|apply upto_alarm]. rewrite (ag_inc _ _ H) by exact E. apply upto_up.
  - apply upto_alarm.
  - destruct (decided k v); [apply upto_done|apply upto_alarm].
  - destruct (m_nlr (a_mach μ) k v s); [apply upto_alarm|left; reflexivity..].
Qed.
Lemma near_ast μ d : agree μ d -> near (careful_ops μ) (ast_ops μ) d.
Proof.
  intros H. constructor; cbn [careful_ops ast_ops o_send o_ready o_super o_glob o_unk o_blk o_rd o_wr o_getf o_setf o_inc o_dec o_plus o_arr o_test o_home o_rev];
    intros; try apply upto_up; auto.
  - destruct (a_super μ t s); [apply upto_done|apply upto_alarm].
  - destruct (k =? d) eqn:E; [|apply upto_alarm]. apply Nat.eqb_eq in E. subst k. rewrite (ag_glob _ _ H). apply upto_up.
  - destruct (small v) eqn:E; [|apply upto_alarm]. rewrite (ag_dec _ _ H) by exact E. apply upto_up.
  - destruct (small v) eqn:E; [|apply upto_alarm]. apply upto_up.
  - apply upto_alarm.
  - destruct (decided k v); [apply upto_done|apply upto_alarm].
  - destruct (m_nlr (a_mach μ) k v s); [apply upto_alarm|left; reflexivity..].
Qed.

Section Eval.
Variable ce : cenv.
Variables (oc : ops S (option X)) (o : ops S X).
Variable d : nat.
Hypothesis N : near oc o d.
(** The order of assignments matters at most where there is one. *)
Variable one : bool.
Hypothesis Hrev : one = false -> o_rev o = true -> forall rho vs v s, o_writes ce o rho (rev vs) v s = o_writes ce o rho vs v s.

Lemma upto_read rho x s : depth rho = d -> upto (o_read ce oc rho x s) (o_read ce o rho x s).
Proof.
  intros Hd. unfold o_read. destruct (resolve x rho) as [[k v]|]; [apply (nr_rd _ _ _ N)|].
  destruct (position x (ce_fields ce)); [apply (nr_getf _ _ _ N)|].
  destruct (text_eqb x t_nil); [apply upto_done|]. destruct (text_eqb x t_true); [apply upto_done|].
  destruct (text_eqb x t_false); [apply upto_done|]. destruct (ce_known ce x); [apply (nr_glob _ _ _ N)|]. rewrite Hd. apply (nr_unk _ _ _ N).
Qed.
Lemma upto_write rho x v s : upto (o_write ce oc rho x v s) (o_write ce o rho x v s).
Proof.
  unfold o_write. destruct (resolve x rho) as [[k w]|]; [apply (nr_wr _ _ _ N)|].
  destruct (position x (ce_fields ce)); [apply (nr_setf _ _ _ N)|left; reflexivity].
Qed.
Lemma upto_writes rho vs v : forall s, upto (o_writes ce oc rho vs v s) (o_writes ce o rho vs v s).
Proof.
  induction vs as [|x vs IH]; intros s; cbn [o_writes]; [apply upto_done|]. apply upto_bind; [apply upto_write|]. intros _ s1. apply IH.
Qed.
Lemma upto_return rho v s : upto (o_return oc rho v s) (o_return o rho v s).
Proof. unfold o_return. destruct (depth rho); [left; reflexivity|apply (nr_home _ _ _ N)]. Qed.
Lemma upto_while n (t b : nat -> S -> out S (option X) value) (t' b' : nat -> S -> out S X value) k :
  (forall n s, upto (t n s) (t' n s)) -> (forall n s, upto (b n s) (b' n s)) ->
  forall s, upto (o_while oc n t b k s) (o_while o n t' b' k s).
Proof.
  intros Ht Hb. induction n as [|n IH]; intros s; cbn [o_while]; [left; reflexivity|].
  apply upto_bind; auto. intros v s1. apply upto_bind; [apply (nr_test _ _ _ N)|]. intros c s2. destruct c; [apply upto_done|].
  apply upto_bind; auto.
Qed.
Lemma upto_body ss ret rho n :
  Forall (fun e => forall s, upto (oeval ce oc e rho n s) (oeval ce o e rho n s)) ss ->
  (forall e, ret = Some e -> forall s, upto (oeval ce oc e rho n s) (oeval ce o e rho n s)) ->
  forall s, upto (oeval_block ce oc ss ret rho n s) (oeval_block ce o ss ret rho n s).
Proof.
  intros Hs Hr. induction Hs as [|e ss He Hs IH]; intros s; cbn [oeval_block].
  - destruct ret as [e|]; [|apply upto_done]. apply upto_bind; auto. intros v s1. apply upto_return.
  - destruct ss as [|e2 ss]; [destruct ret as [e2|]|]; auto; apply upto_bind; auto.
Qed.
Lemma upto_eval : forall e, (one = true -> single e = true) ->
  (forall rho n s, depth rho = d -> upto (oeval ce oc e rho n s) (oeval ce o e rho n s)) /\
  match e with SBlk _ _ _ ss ret _ => forall rho n s, depth rho = d -> upto (oeval_block ce oc ss ret rho n s) (oeval_block ce o ss ret rho n s) | _ => True end.
Proof.
  induction e as [x|l|sup e sel args IHe IHargs|e IHe|e IHe|vs e IHe|label ps ls ss ret per IHss IHret] using src_ind'; intros Hone.
  - split; auto. intros. apply upto_read; auto.
  - split; auto. intros. destruct l as [l|ls]; cbn [oeval o_lit]; [destruct (lit_value l); left; reflexivity|apply (nr_arr _ _ _ N)].
  - split; auto. intros rho n s Hd. rewrite !oeval_send. cbn [single] in Hone.
    assert (H1 : one = true -> single e = true) by (intros E; specialize (Hone E); apply andb_true_iff in Hone; tauto).
    assert (H2 : forall a, In a args -> one = true -> single a = true).
    { intros a Ha E. specialize (Hone E). apply andb_true_iff in Hone. destruct Hone as [_ Hone]. rewrite forallb_forall in Hone. auto. }
    destruct (IHe H1) as [Ie Be]. rewrite Forall_forall in IHargs.
    assert (IB : forall b, (b = e \/ In b args) -> forall n s, upto (o_inline ce oc b rho n s) (o_inline ce o b rho n s)).
    { intros b Hb k u. destruct b as [| | | | | |label ps ls ss ret per]; try (left; reflexivity). cbn [o_inline].
      destruct Hb as [Hb | Hb]; [subst e; apply Be|apply (proj2 (IHargs _ Hb (H2 _ Hb)))]; rewrite depth_layer; exact Hd. }
    destruct (special_form sup e sel args) as [k|] eqn:Es.
    + apply special_shape in Es. destruct Es as (-> & Es & Ha). destruct k.
      * destruct Ha as (a & -> & Ha). cbn [o_special]. apply upto_bind; auto. intros v s1. apply upto_bind; [apply (nr_test _ _ _ N)|].
        intros c s2. destruct c; [apply upto_done|]. apply IB; cbn; auto.
      * destruct Ha as (a & b & -> & Ha & Hb). cbn [o_special]. apply upto_bind; auto. intros v s1. apply upto_bind; [apply (nr_test _ _ _ N)|].
        intros c s2. destruct c; apply IB; cbn; auto.
      * destruct Ha as (a & -> & Hr & Ha). cbn [o_special]. apply upto_while; intros; apply IB; cbn; auto.
      * destruct Ha as (a & -> & Ha). cbn [o_special]. apply upto_bind; auto. intros v s1. apply upto_bind; [apply (nr_test _ _ _ N)|].
        intros c s2. destruct c; [apply upto_done|]. apply IB; cbn; auto.
    + unfold o_message. destruct (adds_one sup sel args); [apply upto_bind; auto; intros; apply (nr_plus _ _ _ N)|].
      assert (IA : forall l, incl l args -> forall vs s, upto (o_args ce oc l rho n vs s) (o_args ce o l rho n vs s)).
      { induction l as [|a l IH]; intros Hi vs s1; cbn [o_args]; [apply upto_done|]. apply upto_bind.
        - apply (proj1 (IHargs a (Hi a (or_introl eq_refl)) (H2 _ (Hi a (or_introl eq_refl))))). exact Hd.
        - intros v s2. apply IH. intros x Hx. apply Hi. right. exact Hx. }
      apply upto_bind; [destruct sup; [apply (nr_ready _ _ _ N)|apply upto_done]|]. intros _ s1. apply upto_bind; auto. intros v s2.
      apply upto_bind; [apply IA, incl_refl|]. intros us s3. destruct sup; [apply (nr_super _ _ _ N)|apply (nr_send _ _ _ N)].
  - destruct (IHe Hone) as [Ie _]. split; auto. intros. cbn [oeval]. apply upto_bind; auto. intros. apply (nr_inc _ _ _ N).
  - destruct (IHe Hone) as [Ie _]. split; auto. intros. cbn [oeval]. apply upto_bind; auto. intros. apply (nr_dec _ _ _ N).
  - cbn [single] in Hone. assert (H1 : one = true -> single e = true) by (intros E; specialize (Hone E); apply andb_true_iff in Hone; tauto).
    destruct (IHe H1) as [Ie _]. split; auto. intros rho n s Hd. cbn [oeval]. apply upto_bind; auto. intros v s1.
    apply upto_bind; [|intros; apply upto_done]. rewrite (nr_rev _ _ _ N).
    replace (o_writes ce o rho (if o_rev o then rev vs else vs) v s1) with (o_writes ce o rho vs v s1); [apply upto_writes|].
    destruct (o_rev o) eqn:Eo; auto. destruct one.
    + specialize (Hone eq_refl). apply andb_true_iff in Hone. destruct Hone as [Hone _]. apply Nat.leb_le in Hone.
      destruct vs as [|x [|y vs]]; auto. cbn in Hone. lia.
    + symmetry. apply Hrev; reflexivity.
  - cbn [single] in Hone.
    assert (B : forall rho n s, depth rho = d -> upto (oeval_block ce oc ss ret rho n s) (oeval_block ce o ss ret rho n s)).
    { intros rho n s Hd. apply upto_body.
      - rewrite Forall_forall in *. intros e He u. apply (proj1 (IHss e He ltac:(intros E; specialize (Hone E); apply andb_true_iff in Hone; destruct Hone as [Hone _]; rewrite forallb_forall in Hone; auto))). exact Hd.
      - intros e -> u. apply (proj1 (IHret ltac:(intros E; specialize (Hone E); apply andb_true_iff in Hone; tauto))). exact Hd. }
    split; auto. intros. cbn [oeval]. apply (nr_blk _ _ _ N).
Qed.
Lemma upto_method ss ret rho n : depth rho = d -> (one = true -> forallb single ss = true /\ single_ret ret = true) ->
  forall s, upto (oeval_method ce oc ss ret rho n s) (oeval_method ce o ss ret rho n s).
Proof.
  intros Hd. induction ss as [|e ss IH]; intros Hone s; cbn [oeval_method].
  - destruct ret as [e|].
    + apply upto_bind; [apply (proj1 (upto_eval e (fun E => proj2 (Hone E)))); exact Hd|]. intros. left; reflexivity.
    + apply upto_bind; [apply (nr_rd _ _ _ N)|]. intros. left; reflexivity.
  - cbn [forallb] in Hone. apply upto_bind.
    + apply (proj1 (upto_eval e ltac:(intros E; destruct (Hone E) as [Hx _]; apply andb_true_iff in Hx; tauto))). exact Hd.
    + intros _ s1. apply IH. intros E. destruct (Hone E) as [Hx Hy]. apply andb_true_iff in Hx. tauto.
Qed.
Lemma upto_closure b rho n : depth rho = d - 1 -> rho <> [] -> 0 < d -> (one = true -> single b = true) ->
  forall s, upto (oeval_closure ce oc b rho n s) (oeval_closure ce o b rho n s).
Proof.
  intros Hd Hn H0 Hone s. destruct b as [| | | | | |label ps ls ss ret per]; try (left; reflexivity). cbn [oeval_closure].
  apply upto_bind; [|intros; left; reflexivity]. apply (proj2 (upto_eval _ Hone)). rewrite depth_level by exact Hn. lia.
Qed.
End Eval.

(** With a careful run that does not stop, both are the same. *)
Lemma upto_same {A} (c : nat -> S -> out S (option X) A) (f g : nat -> S -> out S X A) s : quiet c s ->
  (forall n, upto (c n s) (f n s)) -> (forall n, upto (c n s) (g n s)) -> forall n, f n s = g n s.
Proof.
  intros Hq Hf Hg n. destruct (Hf n) as [Ef|[s' Ef]]; [|exfalso; exact (Hq _ _ Ef)].
  destruct (Hg n) as [Eg|[s' Eg]]; [|exfalso; exact (Hq _ _ Eg)]. rewrite Ef in Eg. clear -Eg.
  destruct (f n s), (g n s); cbn [up] in Eg; congruence.
Qed.
Lemma writes_eq ce μ rho x v s : o_write ce (ast_ops μ) rho x v s = write_var (S := S) (X := X) (ce_fields ce) (a_mach μ) rho x v s.
Proof. reflexivity. Qed.
Lemma writes_rev ce μ : commuting ce (a_mach μ) -> forall rho vs v s,
  o_writes ce (ast_ops μ) rho (rev vs) v s = o_writes (S := S) (X := X) ce (ast_ops μ) rho vs v s.
Proof.
  intros Hc rho vs v. assert (P : forall l l', Permutation l l' -> forall s, o_writes ce (ast_ops μ) rho l v s = o_writes (S := S) (X := X) ce (ast_ops μ) rho l' v s).
  { induction 1; intros s; cbn [o_writes]; auto.
    - apply bind_ext. auto.
    - rewrite <- !bind_assoc. exact (f_equal (fun r => bind r (fun _ s => o_writes ce (ast_ops μ) rho l v s)) (Hc rho y x v s)).
    - rewrite IHPermutation1. apply IHPermutation2. }
  intros s. apply P. symmetry. apply Permutation_rev.
Qed.
End Same.
