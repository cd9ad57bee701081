(** Compiled programs: methods run as bytecodes.  The outcome of a program depends only on
    the outcomes of the bodies of its methods. *)
From Coq Require Import ZArith Bool String Ascii List Lia.
From Verif Require Import Base LexModel ParseModel BcModel BcInterp BcSpec BcTab BcCode BcEval BcRun BcProps VmModel VmSpec VmRel VmNlr VmCode BcCatch.
Import ListNotations.
Open Scope nat_scope.
Open Scope list_scope.

(** * More rounds of loops do not change an outcome *)
Section More.
Context {S X : Type}.
Definition le_out {A} (o o' : out S X A) : Prop := o = Hang \/ o = o'.
Lemma le_refl {A} (o : out S X A) : le_out o o.
Proof. right. auto. Qed.
Lemma le_bind {A B} (o o' : out S X A) (f g : A -> S -> out S X B) : le_out o o' ->
  (forall a s, le_out (f a s) (g a s)) -> le_out (bind o f) (bind o' g).
Proof. intros [-> | ->] H; [left; auto|]. destruct o'; cbn; auto; apply le_refl. Qed.
Variable fields : list text.
Variable μ : machine S X.
Notation eval := (eval fields).
Notation eval_block := (eval_block fields).
Lemma le_while n : forall n' t t' b b' k s, n <= n' ->
  (forall m m' s, m <= m' -> le_out (t m s) (t' m' s)) -> (forall m m' s, m <= m' -> le_out (b m s) (b' m' s)) ->
  le_out (repeat_while n t b k s) (repeat_while n' t' b' k s).
Proof.
  induction n as [|n IH]; intros n' t t' b b' k s Hn Ht Hb; [left; auto|]. destruct n' as [|n']; [lia|]. cbn [repeat_while].
  apply le_bind; [apply Ht; lia|]. intros v s1. destruct (takes k v); [apply le_refl|].
  apply le_bind; [apply Hb; lia|]. intros _ s2. apply IH; auto. lia.
Qed.
Lemma eval_more : forall e,
  (forall rho n n' s, n <= n' -> le_out (eval e μ rho n s) (eval e μ rho n' s)) /\
  match e with
  | SBlk _ _ _ ss ret _ => forall rho n n' s, n <= n' -> le_out (eval_block ss ret μ rho n s) (eval_block ss ret μ rho n' s)
  | _ => True
  end.
Proof.
  induction e as [x|l|sup e sel args IHe IHargs|e IHe|e IHe|vs e IHe|label ps ls ss ret per IHss IHret] using src_ind'.
  - split; auto. intros. apply le_refl.
  - split; auto. intros. apply le_refl.
  - split; auto. intros rho n n' s Hn. rewrite !eval_send.
    assert (IB : forall b, (b = e \/ In b args) -> forall m m' s, m <= m' ->
      le_out (eval_inline fields b μ rho m s) (eval_inline fields b μ rho m' s)).
    { intros b Hb m m' s1 Hm. assert (K : match b with SBlk _ _ _ ss ret _ => forall rho n n' s, n <= n' ->
        le_out (eval_block ss ret μ rho n s) (eval_block ss ret μ rho n' s) | _ => True end).
      { destruct Hb as [-> |Hb]; [apply IHe|]. rewrite Forall_forall in IHargs. apply (IHargs b Hb). }
      destruct b; cbn [eval_inline]; try apply le_refl. apply K; auto. }
    destruct (special_form sup e sel args) as [k|] eqn:E.
    + apply special_shape in E. destruct E as (_ & _ & E). unfold eval_special. destruct k.
      * destruct E as (a & -> & _). apply le_bind; [apply IHe; auto|]. intros v s1. destruct (takes k v); [apply le_refl|].
        apply IB; cbn; auto.
      * destruct E as (a & b & -> & _). apply le_bind; [apply IHe; auto|]. intros v s1. destruct (takes k v); apply IB; cbn; auto.
      * destruct E as (a & -> & _). apply le_while; auto; apply IB; cbn; auto.
      * destruct E as (a & -> & _). apply le_bind; [apply IHe; auto|]. intros v s1. destruct (takes _ v); [apply le_refl|].
        apply IB; cbn; auto.
    + unfold eval_message. apply le_bind; [apply IHe; auto|]. intros v s1. apply le_bind; [|intros; apply le_refl].
      clear IB E. revert s1. generalize [v]. induction IHargs as [|a args [Ha _] _ IH]; intros vs s1; cbn [eval_args]; [apply le_refl|].
      apply le_bind; auto.
  - split; auto. intros rho n n' s Hn. cbn [BcSpec.eval]. apply le_bind; [apply IHe; auto|]. intros. apply le_refl.
  - split; auto. intros rho n n' s Hn. cbn [BcSpec.eval]. apply le_bind; [apply IHe; auto|]. intros. apply le_refl.
  - split; auto. intros rho n n' s Hn. cbn [BcSpec.eval]. apply le_bind; [apply IHe; auto|]. intros. apply le_refl.
  - split; [intros; apply le_refl|]. intros rho n n' s Hn. revert s.
    induction IHss as [|e ss [He _] _ IH]; intros s; cbn [BcSpec.eval_block].
    + destruct ret as [e|]; [|apply le_refl]. apply le_bind; [apply IHret; auto|]. intros. apply le_refl.
    + destruct ss, ret; auto; apply le_bind; auto.
Qed.
Lemma method_more ss ret rho n n' : n <= n' -> forall s, le_out (eval_method fields ss ret μ rho n s) (eval_method fields ss ret μ rho n' s).
Proof.
  intros Hn. induction ss as [|e ss IH]; intros s; cbn [eval_method].
  - destruct ret; [|apply le_refl]. apply le_bind; [apply eval_more; auto|]. intros; apply le_refl.
  - apply le_bind; [apply eval_more; auto|]. auto.
Qed.
Lemma closure_more b rho n n' s : n <= n' -> le_out (eval_closure fields b rho μ n s) (eval_closure fields b rho μ n' s).
Proof.
  intros Hn. destruct b as [| | | | | |l ps ls ss ret per]; try apply le_refl. cbn [eval_closure].
  apply le_bind; [|intros; apply le_refl]. apply (proj2 (eval_more (SBlk l ps ls ss ret per))); auto.
Qed.
End More.

(** * Programs whose bodies have the same outcomes *)
Definition body_t := nat -> option nat -> machine vm stop -> nat -> vm -> vout value.
(** A body settles on the outcome it has with a machine, on machines that settle on its
    operations. *)
Definition eqx (x y : stop) (s s' : vm) : Prop := x = y /\ s = s'.
Notation everywhere := (rel_machine eq eqx (fun _ => True) (fun _ => True) (fun _ _ => True)).
Definition continuous (B : body_t) : Prop := forall mid blk μ1 μ2 n s, everywhere μ1 μ2 ->
  lim eq eqx (B mid blk μ1 n s) (fun j => B mid blk (μ2 j) n s).
Definition monotone (B : body_t) : Prop := forall mid blk μ n n' s, n <= n' -> le_out (B mid blk μ n s) (B mid blk μ n' s).
Definition follows (B B' : body_t) : Prop := forall mid blk μ n s, lawful μ ->
  B mid blk μ n s <> Hang -> exists k, B' mid blk μ k s = B mid blk μ n s.

Lemma lim_eq {A} (o : vout A) c : lim eq eqx o c <-> (o <> Hang -> exists J, forall j, J <= j -> c j = o).
Proof.
  split.
  - intros [H | (o2 & J & H & R)] Hn; [contradiction|]. exists J. intros j Hj. rewrite (H j Hj).
    destruct R; subst; auto. destruct H0; subst; auto.
  - intros H. assert (D : o = Hang \/ o <> Hang) by (destruct o; auto; right; discriminate).
    destruct D as [D|D]; [left; auto|right]. destruct (H D) as [J HJ].
    exists o, J. split; auto. destruct o; try constructor; auto. split; auto. contradiction.
Qed.
Lemma lim_same {A} (o : vout A) : lim eq eqx o (fun _ => o).
Proof. apply lim_eq. intros _. exists 0. auto. Qed.

Section Lift.
Variables P P' : prog.
(** The programs differ only in their bodies. *)
Record same_prog : Prop := {
  sp_find : forall t v s, p_find P t v s = p_find P' t v s;
  sp_super : forall m t s, p_super P m t s = p_super P' m t s;
  sp_dnu : forall t a s, p_dnu P t a s = p_dnu P' t a s;
  sp_prim : forall p a, p_prim P p a = p_prim P' p a;
  sp_catch : forall m, p_catch P m = p_catch P' m;
  sp_inc : forall v, p_inc P v = p_inc P' v;
  sp_dec : forall v, p_dec P v = p_dec P' v }.
Hypothesis HS : same_prog.

Section Step.
Variable call : callee -> list value -> vm -> vout value.
Variable enter : nat -> nat -> nat -> list value -> vm -> vout value.
Variable call' : nat -> callee -> list value -> vm -> vout value.
Variable enter' : nat -> nat -> nat -> nat -> list value -> vm -> vout value.
Hypothesis HC : forall c args s, lim eq eqx (call c args s) (fun j => call' j c args s).
Hypothesis HE : forall m l o args s, lim eq eqx (enter m l o args s) (fun j => enter' j m l o args s).
Lemma send_lim sel args s : lim eq eqx (vm_send P call sel args s) (fun j => vm_send P' (call' j) sel args s).
Proof.
  unfold vm_send. destruct args as [|r args]; [apply lim_same|]. rewrite (sp_find HS). destruct (p_find P' sel r (v_store s)); auto.
  rewrite (sp_dnu HS). destruct (p_dnu P' sel (r :: args) (v_store s)) as [args' st]. rewrite (sp_find HS).
  destruct (p_find P' t_dnu r st); auto. apply lim_same.
Qed.
Lemma send2_lim sel r a s : lim eq eqx (vm_send2 P call sel r a s) (fun j => vm_send2 P' (call' j) sel r a s).
Proof. unfold vm_send2. rewrite (sp_find HS). destruct (p_find P' sel r (v_store s)); auto. apply lim_same. Qed.
Lemma super_lim m sel args s : lim eq eqx (vm_super P call m sel args s) (fun j => vm_super P' (call' j) m sel args s).
Proof. unfold vm_super. rewrite (sp_super HS). destruct (p_super P' m sel (v_store s)); auto. apply lim_same. Qed.
Lemma value_lim b args s : lim eq eqx (vm_value enter b args s) (fun j => vm_value (enter' j) b args s).
Proof. unfold vm_value. destruct (the_block (v_store s) b) as [[[m l] o]|]; auto. apply lim_same. Qed.
Lemma vwhile_lim c b on n : forall s, lim eq eqx (vm_while enter n c b on s) (fun j => vm_while (enter' j) n c b on s).
Proof.
  induction n as [|n IH]; intros s; cbn [vm_while]; [apply lim_hang|].
  apply lim_bind; [apply value_lim|]. intros v s1 s2 <-. destruct (takes _ v); [|apply lim_same].
  apply lim_bind; [apply value_lim|]. intros _ s3 s4 <-. apply IH.
Qed.
Lemma vwhile_more c b on n : forall n' s, n <= n' -> le_out (vm_while enter n c b on s) (vm_while enter n' c b on s).
Proof.
  induction n as [|n IH]; intros n' s Hn; [left; auto|]. destruct n' as [|n']; [lia|]. cbn [vm_while].
  apply le_bind; [apply le_refl|]. intros v s1. destruct (takes _ v); [|apply le_refl].
  apply le_bind; [apply le_refl|]. intros _ s2. apply IH. lia.
Qed.
End Step.
Lemma act_more enter P0 call n n' a : n <= n' -> forall s, le_out (run_act P0 call enter n a s) (run_act P0 call enter n' a s).
Proof.
  intros Hn. induction a as [v|e|f k IH|sel args k IH|c args k IH|b args k IH|c b on k IH]; intros s; cbn [run_act]; try apply le_refl; auto.
  - apply le_bind; [apply le_refl|auto].
  - apply le_bind; [apply le_refl|auto].
  - apply le_bind; [apply le_refl|auto].
  - destruct (the_block (v_store s) b); [|apply le_refl]. destruct (the_block (v_store s) c); [|apply le_refl].
    apply le_bind; [apply vwhile_more; auto|auto].
Qed.
Lemma act_lim call enter call' enter' n a :
  (forall c args s, lim eq eqx (call c args s) (fun j => call' j c args s)) ->
  (forall m l o args s, lim eq eqx (enter m l o args s) (fun j => enter' j m l o args s)) ->
  forall s, lim eq eqx (run_act P call enter n a s) (fun j => run_act P' (call' j) (enter' j) n a s).
Proof.
  intros HC HE. induction a as [v|e|f k IH|sel args k IH|c args k IH|b args k IH|c b on k IH]; intros s; cbn [run_act]; try apply lim_same.
  - apply IH.
  - apply lim_bind; [apply send_lim; auto|]. intros v s1 s2 <-. apply IH.
  - apply lim_bind; [apply HC|]. intros v s1 s2 <-. apply IH.
  - apply lim_bind; [apply value_lim; auto|]. intros v s1 s2 <-. apply IH.
  - destruct (the_block (v_store s) b); [|apply lim_same]. destruct (the_block (v_store s) c); [|apply lim_same].
    apply lim_bind; [apply vwhile_lim; auto|]. intros _ s1 s2 <-. apply IH.
Qed.
Lemma machine_lim call call' mid fid :
  (forall c args s, lim eq eqx (call c args s) (fun j => call' j c args s)) ->
  everywhere (vm_machine P call (vm_nlr P call) mid fid) (fun j => vm_machine P' (call' j) (vm_nlr P' (call' j)) mid fid).
Proof.
  intros HC. 
  assert (I : forall v s, lim eq eqx (vm_inc P v s) (fun _ => vm_inc P' v s)).
  { intros v s. unfold vm_inc. rewrite (sp_inc HS). apply lim_same. }
  split; cbn [m_send m_super m_glob m_blk m_rd m_wr m_getf m_setf m_incf m_inc m_dec m_nlr vm_machine]; intros; subst; try apply lim_same; auto.
  - apply send_lim; auto.
  - apply super_lim; auto.
  - unfold vm_glob. destruct (assoc_glob t (s_globs (v_store s2))); [apply lim_same|]. destruct (self_dynamically s2 fid); [|apply lim_same].
    apply send2_lim; auto.
  - unfold vm_incf. apply lim_bind; [apply lim_same|]. intros v s1 s3 <-. apply lim_bind; [apply I|]. intros; subst. apply lim_same.
  - unfold vm_dec. rewrite (sp_dec HS). apply lim_same.
  - unfold vm_nlr, at_level. destruct (up (v_frames s2) k fid) as [i|]; [|apply lim_same].
    destruct (nth_error (v_frames s2) i) as [f|]; [|apply lim_same]. destruct (f_live f); [apply lim_same|].
    destruct (receiver (v_frames s2) fid); [|apply lim_same]. destruct (self_dynamically s2 fid); [|apply lim_same].
    apply send2_lim; auto.
Qed.
Lemma machine_lawful P0 call nlr mid fid : lawful (vm_machine P0 call nlr mid fid).
Proof. intros k i s. reflexivity. Qed.
Lemma activate_hang cat body mid args outer s : activate cat body mid args outer s <> Hang ->
  body (length (v_frames s)) (push_frame mid args outer s) <> Hang.
Proof. unfold activate. intros H E. rewrite E in H. auto. Qed.
Lemma activate_same cat body body' mid args outer s :
  body (length (v_frames s)) (push_frame mid args outer s) = body' (length (v_frames s)) (push_frame mid args outer s) ->
  activate cat body mid args outer s = activate cat body' mid args outer s.
Proof. unfold activate. intros ->. reflexivity. Qed.
Lemma call_follows : follows (p_body P) (p_body P') -> continuous (p_body P') -> monotone (p_body P') ->
  forall n c blk args s, lim eq eqx (call_at P n c blk args s) (fun j => call_at P' j c blk args s).
Proof.
  intros F C Mo. induction n as [|n IH]; intros c blk args s; [apply lim_hang|].
  set (call1 := fun c args s => call_at P n c None args s).
  set (call2 := fun j c args s => call_at P' j c None args s).
  assert (HC : forall c args s, lim eq eqx (call1 c args s) (fun j => call2 j c args s)) by (intros; apply IH).
  assert (Body : forall mid b cat args outer s,
    lim eq eqx (activate cat (fun fid => p_body P mid b (vm_machine P call1 (vm_nlr P call1) mid fid) n) mid args outer s)
      (fun j => match j with O => Hang | S j =>
         activate cat (fun fid => p_body P' mid b (vm_machine P' (call2 j) (vm_nlr P' (call2 j)) mid fid) j) mid args outer s end)).
  { intros mid b cat args0 outer s0. apply lim_eq. intros Hn. apply activate_hang in Hn as Hb.
    set (fid := length (v_frames s0)) in *. set (s1 := push_frame mid args0 outer s0) in *.
    destruct (F mid b _ n s1 (machine_lawful _ _ _ _ _) Hb) as [k Hk].
    pose proof (C mid b _ _ k s1 (machine_lim call1 call2 mid fid HC)) as L. rewrite lim_eq in L.
    destruct L as [J HJ]; [rewrite Hk; auto|]. exists (S (J + k)). intros [|j] Hj; [lia|].
    apply activate_same. fold fid s1. rewrite <- Hk, <- (HJ j) by lia.
    destruct (Mo mid b (vm_machine P' (call2 j) (vm_nlr P' (call2 j)) mid fid) k j s1) as [E|E]; [lia| |auto].
    exfalso. rewrite (HJ j) in E by lia. congruence. }
  destruct c as [mid|p].
  - destruct blk as [[l o]|].
    + eapply lim_ext; [apply (Body mid (Some l) false)|]. intros [|j]; reflexivity.
    + eapply lim_ext; [apply (Body mid None (p_catch P mid))|]. intros [|j]; [reflexivity|]. rewrite (sp_catch HS). reflexivity.
  - apply lim_eq. intros Hn. cbn [call_at] in Hn |- *.
    pose proof (act_lim call1 (fun m l o args s => call_at P n (CMeth m) (Some (l, o)) args s) call2
      (fun j m l o args s => call_at P' j (CMeth m) (Some (l, o)) args s) n (p_prim P p args) HC (fun m l o args s => IH (CMeth m) (Some (l, o)) args s) s) as L.
    rewrite lim_eq in L. destruct (L Hn) as [J HJ]. exists (S (J + n)). intros [|j] Hj; [lia|]. cbn [call_at].
    etransitivity; [|apply (HJ j); lia]. rewrite (sp_prim HS).
    destruct (act_more (fun m l o args s => call_at P' j (CMeth m) (Some (l, o)) args s) P' (call2 j) n j (p_prim P' p args)) with (s := s) as [E|E]; [lia| |symmetry; exact E].
    exfalso. rewrite <- (sp_prim HS), (HJ j) in E by lia. contradiction.
Qed.
End Lift.
Lemma same_sym P P' : same_prog P P' -> same_prog P' P.
Proof. intros []. split; auto. Qed.
Lemma same_calls P P' : same_prog P P' ->
  follows (p_body P) (p_body P') -> continuous (p_body P') -> monotone (p_body P') ->
  follows (p_body P') (p_body P) -> continuous (p_body P) -> monotone (p_body P) ->
  forall c args s, same_outcome (fun n s => call P n c args s) (fun n s => call P' n c args s) s.
Proof.
  intros HS F C Mo F' C' Mo' c args s. split; intros n Hn.
  - pose proof (call_follows P P' HS F C Mo n c None args s) as L. rewrite lim_eq in L. apply L. exact Hn.
  - pose proof (call_follows P' P (same_sym _ _ HS) F' C' Mo' n c None args s) as L. rewrite lim_eq in L. apply L. exact Hn.
Qed.

(** * Compiled programs *)
Lemma le_run {S X} (μ : machine S X) outer m n n' s : n <= n' -> le_out (run_method μ outer m n s) (run_method μ outer m n' s).
Proof.
  intros Hn. unfold run_method. 
  match goal with |- le_out ?a _ => assert (D : a = Hang \/ a <> Hang) by (destruct a; auto; right; discriminate) end.
  destruct D as [D|D]; [left; auto|right]. symmetry. apply run_more; auto.
Qed.
Lemma bc_monotone C : monotone (bc_body C).
Proof.
  intros mid blk μ n n' s Hn. unfold bc_body. destruct (C mid) as [m|]; [|apply le_refl].
  destruct blk as [l|]; [|apply le_run; auto]. destruct (find _ _) as [[outer b]|]; [apply le_run; auto|apply le_refl].
Qed.
Lemma bc_continuous C : continuous (bc_body C).
Proof.
  intros mid blk μ1 μ2 n s H. unfold bc_body. destruct (C mid) as [m|]; [|apply lim_same].
  destruct blk as [l|]; [|apply run_rel; auto]. destruct (find _ _) as [[outer b]|]; [apply run_rel; auto|apply lim_same].
Qed.
Lemma source_monotone M : monotone (source_body M).
Proof.
  intros mid blk μ n n' s Hn. unfold source_body. destruct (M mid) as [m|]; [|apply le_refl].
  destruct blk as [l|]; [|apply method_more; auto]. destruct (block_of m l) as [[b rho]|]; [apply closure_more; auto|apply le_refl].
Qed.
Section Compiled.
Variable M : nat -> option msrc.
Variable C : nat -> option meth.
Hypothesis HC : forall mid, match M mid with
  | Some m => ok_method m /\ in_layer t_self (ms_locals m) = None /\
      exists ce period meth, C mid = Some meth /\ ce_fields ce = ms_fields m /\
        compile_method ce (ms_params m) (ms_locals m) (ms_body m) (ms_ret m) period = Ok meth
  | None => C mid = None
  end.
Lemma blocks_all mid m : M mid = Some m -> Forall (lit_ok m) (ms_blocks m).
Proof.
  intros E. specialize (HC mid). rewrite E in HC. destruct HC as ((H1 & H2 & _) & _).
  unfold ms_blocks, body_blocks. apply Forall_app. split.
  - apply Forall_flat_map. apply Forall_forall. intros a Ha. rewrite forallb_forall in H1.
    apply (blocks_lit m a (H1 a Ha)); [|exact I|cbn; lia]. intros Er. unfold returns_from_blocks.
    apply orb_true_iff. left. apply existsb_exists. eauto.
  - destruct (ms_ret m) as [e|] eqn:Er; auto. apply (blocks_lit m e H2); [|exact I|cbn; lia].
    intros E'. unfold returns_from_blocks. rewrite Er, E'. apply orb_true_r.
Qed.
Lemma source_continuous : continuous (source_body M).
Proof.
  intros mid blk μ1 μ2 n s H. unfold source_body. destruct (M mid) as [m|] eqn:E; [|apply lim_same].
  pose proof (blocks_all mid m E) as L. specialize (HC mid). rewrite E in HC. destruct HC as ((O1 & O2 & _) & _).
  destruct blk as [l|].
  - destruct (block_of m l) as [[b rho]|] eqn:Eb; [|apply lim_same]. apply block_of_in in Eb as [Eb _].
    rewrite Forall_forall in L. specialize (L _ Eb). destruct L as (Lb & Ll & L). cbn [fst snd] in *.
    destruct b as [| | | | | |label ps ls ss ret per]; try contradiction. destruct L as (B1 & B2 & _).
    eapply eval_closure_rel; eauto. split; [split; auto|].
    + cbn [add_level blocky]. destruct rho; [cbn in Ll; lia|]. split; auto.
    + split; auto. intros b rho' _. destruct b; auto.
  - eapply eval_method_rel; eauto; [split; [exact I|auto]|]. intros b rho' _. destruct b; auto.
Qed.
Lemma find_both {A B} (R : A -> B -> Prop) (f : A -> bool) (g : B -> bool) l l' :
  Forall2 R l l' -> (forall a b, R a b -> f a = g b) ->
  match find f l, find g l' with Some a, Some b => R a b | None, None => True | _, _ => False end.
Proof.
  intros H E. induction H as [|a b l l' Hab _ IH]; cbn [find]; auto. rewrite <- (E a b Hab). destruct (f a); auto.
Qed.
Lemma bodies_same mid blk μ s : lawful μ -> same_outcome (fun n s => source_body M mid blk μ n s) (fun n s => bc_body C mid blk μ n s) s.
Proof.
  intros Hμ. unfold source_body, bc_body. specialize (HC mid). destruct (M mid) as [m|].
  - destruct HC as ((O1 & O2 & _) & Hs & ce & period & me & -> & <- & Hm). destruct blk as [l|].
    + pose proof (C43_blocks_partial _ _ μ ce _ _ _ _ _ _ O1 O2 Hs Hm Hμ) as F.
      pose proof (find_both _ (fun p => me_label (snd p) =? l) (fun p => label_of (fst p) =? l) _ _ F) as G. 
      unfold block_of, ms_blocks, ms_env. 
      destruct (find (fun p => me_label (snd p) =? l) (inside me [])) as [[outer b]|] eqn:E1.
      * destruct (find _ (body_blocks _ _ _)) as [[b' rho]|] eqn:E2.
        -- apply G. intros [o1 m1] [b1 r1] [Hl _]. cbn [fst snd] in *. unfold label_is in Hl. destruct b1; try contradiction.
           cbn [label_of]. rewrite Hl. auto.
        -- destruct G. intros [o1 m1] [b1 r1] [Hl _]. cbn [fst snd] in *. unfold label_is in Hl. destruct b1; try contradiction.
           cbn [label_of]. rewrite Hl. auto.
      * destruct (find _ (body_blocks _ _ _)) as [[b' rho]|] eqn:E2.
        -- destruct G. intros [o1 m1] [b1 r1] [Hl _]. cbn [fst snd] in *. unfold label_is in Hl. destruct b1; try contradiction.
           cbn [label_of]. rewrite Hl. auto.
        -- split; intros n _; exists 0; auto.
    + eapply C43_method_partial; eauto.
  - rewrite HC. split; intros n _; exists 0; auto.
Qed.
Lemma source_follows : follows (source_body M) (bc_body C).
Proof.
  intros mid blk μ n s Hμ Hn. destruct (bodies_same mid blk μ s Hμ) as [H _]. destruct (H n Hn) as [K HK]. exists K. apply HK. auto.
Qed.
Lemma bc_follows : follows (bc_body C) (source_body M).
Proof.
  intros mid blk μ n s Hμ Hn. destruct (bodies_same mid blk μ s Hμ) as [_ H]. destruct (H n Hn) as [K HK]. exists K. apply HK. auto.
Qed.
End Compiled.

(** * Both together *)
Section Both.
Variable D : nat -> option mdef.
Variable P : prog.
Hypothesis HP : compiled_prog D P.
Lemma both_ok : forall mid, match sources D mid with
  | Some m => ok_method m /\ in_layer t_self (ms_locals m) = None /\
      exists ce period meth, code_at D mid = Some meth /\ ce_fields ce = ms_fields m /\
        compile_method ce (ms_params m) (ms_locals m) (ms_body m) (ms_ret m) period = Ok meth
  | None => code_at D mid = None
  end.
Proof.
  intros mid. destruct HP as (_ & _ & H). unfold sources, code_at. destruct (D mid) as [d|] eqn:E; [|reflexivity]. cbn [option_map].
  destruct (H mid d E) as (H1 & H2 & H3 & (m & H4) & _). split; auto. split; auto. exists (md_env d), (md_period d), m.
  rewrite H4. auto.
Qed.
Lemma both_same : same_prog (from_source D P) P.
Proof. split; reflexivity. Qed.
Theorem compiled_calls : forall c args s,
  same_outcome (fun n s => call (from_source D P) n c args s) (fun n s => call P n c args s) s.
Proof.
  assert (E : p_body P = bc_body (code_at D)) by apply HP.
  apply same_calls; rewrite ?E; cbn [from_source p_body].
  - apply both_same.
  - apply source_follows, both_ok.
  - apply bc_continuous.
  - apply bc_monotone.
  - apply bc_follows, both_ok.
  - eapply source_continuous, both_ok.
  - apply source_monotone.
Qed.
(** The compiler marks the methods that have to catch returns. *)
Lemma catches_all d m : code_of d = Ok m -> returns_from_blocks (md_src d) = true -> catches d = true.
Proof.
  unfold code_of, compile_method, compile_with, catches, gen_method, returns_from_blocks. intros H Hr.
  destruct (new_scope _ _) as [sc|]; [|discriminate]. cbn [Base.bind] in H |- *.
  destruct (gen_method_body (md_env d) _ _ _ (mg_new true, [sc])) as [[g scs]|] eqn:E; [|discriminate].
  apply method_catching in E; [|discriminate]. destruct E as [E1 E2]. specialize (E2 Hr). cbn [snd] in *.
  inversion E1 as [|? sc' ? l ? El]; subst. inversion El; subst. exact E2.
Qed.
Lemma from_source_ok : ok_prog (sources D) (from_source D P).
Proof.
  destruct HP as (_ & H2 & H3). split; [reflexivity|]. split; [exact H2|].
  intros mid m E. unfold sources in E. destruct (D mid) as [d|] eqn:Ed; [|discriminate]. cbn in E. injection E as <-.
  destruct (H3 mid d Ed) as (O & _ & _ & (m & Hm) & Hc). split; [exact O|]. intros Hr. cbn [from_source p_catch]. rewrite Hc.
  eapply catches_all; eauto.
Qed.
End Both.
