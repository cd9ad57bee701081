(** Executing the method the AST compiler makes of a source, and the methods of its blocks,
    is evaluating the source. *)
From Coq Require Import ZArith Bool String Ascii List Lia Permutation.
From Verif Require Import Base LexModel ParseModel BcModel BcInterp BcSpec BcCode BcEval BcScope BcTab BcCatch VmSpec
  AstModel AstSpec AstNode AstMerge AstGen.
Import ListNotations.
Open Scope nat_scope.
Open Scope list_scope.

(** * Nodes and the locals in them *)
Section Exec.
Context {S X : Type}.
Variable μ : amachine S X.
Lemma execs_bare n l : Forall (fun x => forall n s, exec μ (bare x) n s = exec μ x n s) l ->
  forall vs s, execs μ n (map bare l) vs s = execs μ n l vs s.
Proof.
  induction 1 as [|x l H _ IH]; intros vs s; cbn [map execs]; auto. rewrite H. apply bind_ext. intros. apply IH.
Qed.
Lemma execq_bare n l : Forall (fun x => forall n s, exec μ (bare x) n s = exec μ x n s) l ->
  forall s, execq μ n (map bare l) s = execq μ n l s.
Proof.
  induction 1 as [|x l H Hl IH]; intros s; cbn [map execq]; auto. destruct l as [|y l]; cbn [map]; auto.
  rewrite H. apply bind_ext. intros. exact (IH s0).
Qed.
Lemma while_ext b n (c c' t t' : nat -> S -> out S (astop X) value) :
  (forall n s, c n s = c' n s) -> (forall n s, t n s = t' n s) ->
  forall s, while_node μ b n c t s = while_node μ b n c' t' s.
Proof.
  intros Hc Ht. induction n as [|n IH]; intros s; cbn [while_node]; auto. rewrite Hc. apply bind_ext. intros v s1.
  destruct (is_bool b v); auto. rewrite Ht. apply bind_ext. intros. apply IH.
Qed.
Lemma exec_bare nd : forall n s, exec μ (bare nd) n s = exec μ nd n s.
Proof.
  induction nd using node_ind'; intros n0 s0; cbn [bare]; auto.
  - cbn [exec]. rewrite IHnd. reflexivity.
  - cbn [exec]. rewrite IHnd. reflexivity.
  - change (bind (exec μ (bare nd) n0 s0) (fun v s => bind (execs μ n0 (map bare l) [v] s) (fun vs s => lift (m_send (a_mach μ) sel vs s)))
      = bind (exec μ nd n0 s0) (fun v s => bind (execs μ n0 l [v] s) (fun vs s => lift (m_send (a_mach μ) sel vs s)))).
    rewrite IHnd. apply bind_ext. intros. rewrite execs_bare by assumption. reflexivity.
  - change ((if a_super μ sel s0 then bind (exec μ (bare nd) n0 s0) (fun v s => bind (execs μ n0 (map bare l) [v] s) (fun vs s => lift (m_super (a_mach μ) sel vs s))) else throw μ PyException s0)
      = (if a_super μ sel s0 then bind (exec μ nd n0 s0) (fun v s => bind (execs μ n0 l [v] s) (fun vs s => lift (m_super (a_mach μ) sel vs s))) else throw μ PyException s0)).
    destruct (a_super μ sel s0); auto.
    rewrite IHnd. apply bind_ext. intros. rewrite execs_bare by assumption. reflexivity.
  - cbn [exec]. rewrite IHnd. reflexivity.
  - cbn [exec]. rewrite IHnd. reflexivity.
  - cbn [exec]. rewrite IHnd. reflexivity.
  - apply (execq_bare n0 l H s0).
  - cbn [exec]. rewrite IHnd1. apply bind_ext. intros v s1. destruct (is_bool b v); auto.
  - cbn [exec]. rewrite IHnd1. apply bind_ext. intros v s1. destruct (is_nil v); auto.
  - cbn [exec]. rewrite IHnd1. apply bind_ext. intros v s1. destruct (is_nil v); auto.
  - cbn [exec]. rewrite IHnd1. apply bind_ext. intros v s1. destruct (is_bool b v); auto. destruct (is_bool (negb b) v); auto.
  - cbn [exec]. rewrite IHnd1. apply bind_ext. intros v s1. destruct (is_nil v); auto.
  - cbn [exec]. apply while_ext; auto.
  - cbn [exec]. rewrite IHnd1. apply bind_ext. intros v s1. destruct (is_bool true v); auto.
  - cbn [exec]. rewrite IHnd1. apply bind_ext. intros v s1. destruct (is_bool true v); auto. destruct (is_bool false v); auto.
Qed.

(** * Which nodes return from the activation they are in *)
Fixpoint loc (nd : node) : bool :=
  match nd with
  | NLit _ | NArr _ | NBlk _ _ _ _ _ | NBlkT _ _ _ _ | NRead _ _ | NSelf _ | NFldR _ _ | NFldI _ _ | NGlob _ | NUnk _ _ => false
  | NRetLoc _ => true
  | NWrite _ _ e | NFldW _ _ e | NInc e | NRetNL _ e => loc e
  | NSend _ r l | NSuper _ r l => loc r || existsb loc l
  | NSeq l => existsb loc l
  | NIf _ c t | NIfNil c t | NIfNotNil c t | NWhile _ c t | NAnd c t | NOr c t => loc c || loc t
  | NIfElse _ c t f | NIfNN c t f => loc c || loc t || loc f
  end.
Definition safe {A} (o : out S (astop X) A) : Prop := forall v s, o <> Abrupt (ALoc v) s.
Lemma safe_bind {A B} (o : out S (astop X) A) (f : A -> S -> out S (astop X) B) :
  safe o -> (forall a s, safe (f a s)) -> safe (bind o f).
Proof.
  intros H Hf. destruct o as [a s0|w s0|x s0| |]; [apply Hf|discriminate| |discriminate|discriminate].
  intros v s E. injection E as -> ->. exact (H _ _ eq_refl).
Qed.
Lemma safe_lift {A} (o : out S X A) : safe (lift o).
Proof. intros v s. destruct o; discriminate. Qed.
Lemma safe_done {A} (a : A) s : safe (Done a s).
Proof. intros v s'. discriminate. Qed.
Lemma safe_throw {A} e s : safe (A := A) (throw μ e s).
Proof. intros v s'. discriminate. Qed.
Lemma safe_execs n l : Forall (fun x => forall n s, safe (exec μ x n s)) l -> forall vs s, safe (execs μ n l vs s).
Proof. induction 1; intros vs s; cbn [execs]; [apply safe_done|]. apply safe_bind; auto. Qed.
Lemma safe_execq n l : Forall (fun x => forall n s, safe (exec μ x n s)) l -> forall s, safe (execq μ n l s).
Proof.
  induction 1 as [|x l H Hl IH]; intros s; cbn [execq]; [intros v s'; discriminate|]. destruct l as [|y l]; auto.
  apply safe_bind; auto.
Qed.
Lemma safe_while b n c t : (forall n s, safe (c n s)) -> (forall n s, safe (t n s)) -> forall s, safe (while_node μ b n c t s).
Proof.
  intros Hc Ht. induction n as [|n IH]; intros s; cbn [while_node]; [intros v s'; discriminate|]. apply safe_bind; auto. intros v s1.
  destruct (is_bool b v); [apply safe_bind; auto|]. destruct (is_bool (negb b) v); [apply safe_done|apply safe_throw].
Qed.
Lemma existsb_F {A} (f : A -> bool) l : existsb f l = false -> Forall (fun x => f x = false) l.
Proof. induction l; cbn [existsb]; intros H; constructor; apply orb_false_iff in H; tauto. Qed.
Lemma Forall_mp {A} (P Q : A -> Prop) l : Forall P l -> Forall (fun x => P x -> Q x) l -> Forall Q l.
Proof. intros H. induction H; intros H2; inversion H2; subst; constructor; auto. Qed.
Lemma exec_safe nd : loc nd = false -> forall n s, safe (exec μ nd n s).
Proof.
  assert (L : forall l, Forall (fun x => loc x = false -> forall n s, safe (exec μ x n s)) l -> existsb loc l = false ->
    Forall (fun x => forall n s, safe (exec μ x n s)) l).
  { intros l H E. eapply Forall_mp; [apply existsb_F; exact E|exact H]. }
  induction nd using node_ind'; intros Hl n0 s0; cbn [loc] in Hl; repeat rewrite orb_false_iff in Hl; try discriminate.
  all: try (cbn [exec]; first [apply safe_done|apply safe_lift]).
  - cbn [exec]. apply safe_bind; auto. intros. apply safe_bind; [apply safe_lift|]. intros; apply safe_done.
  - cbn [exec]. apply safe_bind; auto. intros. apply safe_bind; [apply safe_lift|]. intros; apply safe_done.
  - destruct Hl as [H1 H2]. 
    change (safe (bind (exec μ nd n0 s0) (fun v s => bind (execs μ n0 l [v] s) (fun vs s => lift (m_send (a_mach μ) sel vs s))))).
    apply safe_bind; auto. intros. apply safe_bind; [apply safe_execs; auto|]. intros; apply safe_lift.
  - destruct Hl as [H1 H2]. 
    change (safe (if a_super μ sel s0 then bind (exec μ nd n0 s0) (fun v s => bind (execs μ n0 l [v] s) (fun vs s => lift (m_super (a_mach μ) sel vs s))) else throw μ PyException s0)).
    destruct (a_super μ sel s0); [|apply safe_throw].
    apply safe_bind; auto. intros. apply safe_bind; [apply safe_execs; auto|]. intros; apply safe_lift.
  - cbn [exec]. apply safe_bind; auto. intros; apply safe_lift.
  - cbn [exec]. apply safe_bind; auto. intros; apply safe_lift.
  - apply (safe_execq n0 l); auto.
  - destruct Hl. cbn [exec]. apply safe_bind; auto. intros v s1. destruct (is_bool b v); auto. destruct (is_bool (negb b) v); [apply safe_done|apply safe_throw].
  - destruct Hl. cbn [exec]. apply safe_bind; auto. intros v s1. destruct (is_nil v); auto. apply safe_done.
  - destruct Hl. cbn [exec]. apply safe_bind; auto. intros v s1. destruct (is_nil v); auto. apply safe_done.
  - destruct Hl as [[? ?] ?]. cbn [exec]. apply safe_bind; auto. intros v s1. destruct (is_bool b v); auto. destruct (is_bool (negb b) v); auto. apply safe_throw.
  - destruct Hl as [[? ?] ?]. cbn [exec]. apply safe_bind; auto. intros v s1. destruct (is_nil v); auto.
  - destruct Hl. cbn [exec]. apply safe_while; auto.
  - destruct Hl. cbn [exec]. apply safe_bind; auto. intros v s1. destruct (is_bool true v); auto. destruct (is_bool false v); [apply safe_done|apply safe_throw].
  - destruct Hl. cbn [exec]. apply safe_bind; auto. intros v s1. destruct (is_bool true v); [apply safe_done|]. destruct (is_bool false v); auto. apply safe_throw.
Qed.
Lemma answer_flat c (o : out S (astop X) value) : (c = false -> safe o) -> answer c o = bind (flat o) (fun v s => Retn v s).
Proof.
  intros H. destruct o as [v s|v s|[x|v] s| |]; try reflexivity. cbn. destruct c; auto. exfalso. exact (H eq_refl v s eq_refl).
Qed.
End Exec.

Lemma loc_bare nd : loc (bare nd) = loc nd.
Proof.
  induction nd using node_ind'; cbn [bare loc]; auto; try congruence.
  - rewrite IHnd. f_equal. apply existsb_map_F. eapply Forall_impl; [|exact H]. auto.
  - rewrite IHnd. f_equal. apply existsb_map_F. eapply Forall_impl; [|exact H]. auto.
  - apply existsb_map_F. eapply Forall_impl; [|exact H]. auto.
Qed.
Lemma bare_seq l : bare (seq_node l) = seq_node (map bare l).
Proof. destruct l as [|x [|y l]]; reflexivity. Qed.
Lemma loc_seq l : loc (seq_node l) = existsb loc l.
Proof. destruct l as [|x [|y l]]; cbn [seq_node loc existsb]; auto. rewrite orb_false_r. reflexivity. Qed.

Section Loc.
Variable ce : cenv.
Lemma loc_rd rho x : loc (rd_node ce rho x) = false.
Proof.
  unfold rd_node. destruct (resolve x rho) as [[k v]|]; [destruct (text_eqb x t_self); reflexivity|].
  destruct (position x (ce_fields ce)); [reflexivity|].
  destruct (text_eqb x t_nil); [reflexivity|]. destruct (text_eqb x t_true); [reflexivity|].
  destruct (text_eqb x t_false); [reflexivity|]. destruct (ce_known ce x); reflexivity.
Qed.
Lemma loc_wr rho x e : loc (wr_node ce rho x e) = true -> loc e = true.
Proof.
  unfold wr_node. destruct (resolve x rho) as [[k v]|]; auto. destruct (position x (ce_fields ce)).
  - destruct (accesses_field n e); auto. discriminate.
  - cbn. rewrite !orb_false_r. auto.
Qed.
(** Only [^] in blocks makes such nodes, and only where the blocks are run in place in the
    home activation. *)
Lemma loc_node : forall e,
  (forall rho, loc (node_of ce e rho) = true -> rets e = true /\ depth rho = 0) /\
  match e with
  | SBlk _ _ _ ss ret _ => forall rho, loc (node_body ce ss ret rho) = true -> rets e = true /\ depth rho = 0
  | _ => True
  end.
Proof.
  induction e as [x|l|sup e sel args IHe IHargs|e IHe|e IHe|vs e IHe|label ps ls ss ret per IHss IHret] using src_ind'.
  - split; auto. intros rho H. cbn [node_of] in H. rewrite loc_rd in H. discriminate.
  - split; auto. intros rho H. destruct l as [l|ls]; cbn [node_of] in H; [destruct (lit_value l)|]; discriminate.
  - split; auto. intros rho H. rewrite node_send in H. destruct IHe as [Ie Be]. rewrite Forall_forall in IHargs. cbn [rets].
    assert (IA : forall a, In a args -> loc (node_of ce a rho) = true -> rets e || existsb rets args = true /\ depth rho = 0).
    { intros a Ha Hl. destruct (proj1 (IHargs a Ha) rho Hl) as [R D]. split; auto. apply orb_true_iff. right. apply existsb_exists. eauto. }
    assert (IB : forall b, (b = e \/ In b args) -> loc (node_inl ce b rho) = true -> rets e || existsb rets args = true /\ depth rho = 0).
    { intros b Hb Hl. assert (Q : rets b = true /\ depth rho = 0).
      { destruct b as [| | | | | |label ps ls ss ret per]; try discriminate. cbn [node_inl] in Hl.
        assert (D : depth (add_layer ls rho) = depth rho) by (destruct rho; reflexivity). rewrite <- D.
        destruct Hb as [Hb | Hb]; [subst e; apply Be; exact Hl|apply (proj2 (IHargs _ Hb)); exact Hl]. }
      destruct Q as [R D]. split; auto. apply orb_true_iff. destruct Hb as [Hb | Hb]; [left; congruence|right; apply existsb_exists; eauto]. }
    assert (IR : loc (node_of ce e rho) = true -> rets e || existsb rets args = true /\ depth rho = 0).
    { intros Hl. destruct (Ie _ Hl) as [-> D]. auto. }
    destruct (special_form sup e sel args) as [k|] eqn:Es.
    + apply special_shape in Es. destruct Es as (-> & Es & Ha). destruct k.
      * destruct Ha as (a & -> & Ha). cbn [node_special] in H.
        assert (Q : loc (node_of ce e rho) || loc (node_inl ce a rho) = true) by (destruct k; exact H).
        apply orb_true_iff in Q. destruct Q as [Q|Q]; auto. apply (IB a); cbn; auto.
      * destruct Ha as (a & b & -> & Ha & Hb). cbn [node_special] in H.
        assert (Q : loc (node_of ce e rho) = true \/ loc (node_inl ce a rho) = true \/ loc (node_inl ce b rho) = true).
        { destruct k; cbn [else_node loc] in H; repeat rewrite orb_true_iff in H; tauto. }
        destruct Q as [Q|[Q|Q]]; auto; [apply (IB a)|apply (IB b)]; cbn; auto.
      * destruct Ha as (a & -> & Hr & Ha). cbn [node_special loc] in H. apply orb_true_iff in H.
        destruct H as [Q|Q]; [apply (IB e)|apply (IB a)]; cbn; auto.
      * destruct Ha as (a & -> & Ha). cbn [node_special] in H.
        assert (Q : loc (node_of ce e rho) || loc (node_inl ce a rho) = true) by (destruct b; exact H).
        apply orb_true_iff in Q. destruct Q as [Q|Q]; auto. apply (IB a); cbn; auto.
    + unfold node_message in H. destruct (adds_one sup sel args); [apply IR; exact H|].
      assert (Q : loc (node_of ce e rho) || existsb loc (map (fun a => node_of ce a rho) args) = true) by (destruct sup; exact H).
      apply orb_true_iff in Q. destruct Q as [Q|Q]; auto. apply existsb_exists in Q. destruct Q as (x & Hx & Q).
      apply in_map_iff in Hx. destruct Hx as (a & <- & Hx). eauto.
  - destruct IHe as [Ie _]. split; auto.
  - destruct IHe as [Ie _]. split; auto. intros rho H. cbn [node_of loc existsb] in H. rewrite !orb_false_r in H. auto.
  - destruct IHe as [Ie _]. split; auto. intros rho H. cbn [node_of] in H. cbn [rets]. apply Ie. clear Ie.
    induction vs as [|v vs IH]; auto. cbn [wr_nodes fold_right] in H. apply loc_wr in H. auto.
  - split.
    + intros rho H. cbn [node_of] in H. unfold blk_node in H. match type of H with loc (match ?x with _ => _ end) = _ => destruct x end; discriminate.
    + intros rho H. unfold node_body in H. rewrite loc_seq in H. unfold node_list in H. rewrite existsb_app in H. apply orb_true_iff in H.
      cbn [rets]. destruct H as [H|H].
      * apply existsb_exists in H. destruct H as (x & Hx & Q). apply in_map_iff in Hx. destruct Hx as (a & <- & Hx).
        rewrite Forall_forall in IHss. destruct (proj1 (IHss a Hx) rho Q) as [R D]. split; auto. apply orb_true_iff. left. apply existsb_exists. eauto.
      * destruct ret as [e|]; [|discriminate]. split; [apply orb_true_r|]. cbn [existsb] in H. rewrite orb_false_r in H.
        unfold ret_node in H. destruct (depth rho) eqn:Ed; auto. cbn [loc] in H. destruct (proj1 IHret _ H) as [_ H']. congruence.
Qed.
End Loc.

(** * Blocks *)
(** The blocks in the node of an expression are the nodes of its block literals. *)
Definition nodes_of (ce : cenv) (l : list (src * env)) : list node := map (fun p => node_of ce (fst p) (snd p)) l.
Lemma nodes_app ce a b : nodes_of ce (a ++ b) = nodes_of ce a ++ nodes_of ce b.
Proof. apply map_app. Qed.
Lemma blocks_bare nd : blocks_in (bare nd) = map bare (blocks_in nd).
Proof.
  assert (L : forall l, Forall (fun x => blocks_in (bare x) = map bare (blocks_in x)) l ->
    flat_map blocks_in (map bare l) = map bare (flat_map blocks_in l)).
  { induction 1 as [|x l H _ IH]; cbn [map flat_map]; auto. rewrite map_app. congruence. }
  induction nd using node_ind'; cbn [bare blocks_in]; auto; repeat rewrite map_app; try congruence.
  - cbn [map bare]. congruence.
  - rewrite IHnd, L; auto.
  - rewrite IHnd, L; auto.
Qed.
Lemma blocks_seq l : blocks_in (seq_node l) = flat_map blocks_in l.
Proof. destruct l as [|x [|y l]]; cbn [seq_node blocks_in flat_map]; auto. rewrite app_nil_r. reflexivity. Qed.
Section Blocks.
Variable ce : cenv.
Lemma blocks_rd rho x : blocks_in (rd_node ce rho x) = [].
Proof.
  unfold rd_node. destruct (resolve x rho) as [[k v]|]; [destruct (text_eqb x t_self); reflexivity|].
  destruct (position x (ce_fields ce)); [reflexivity|].
  destruct (text_eqb x t_nil); [reflexivity|]. destruct (text_eqb x t_true); [reflexivity|].
  destruct (text_eqb x t_false); [reflexivity|]. destruct (ce_known ce x); reflexivity.
Qed.
Lemma blocks_wr rho x e : blocks_in (wr_node ce rho x e) = blocks_in e.
Proof.
  unfold wr_node. destruct (resolve x rho) as [[k v]|]; auto. destruct (position x (ce_fields ce)).
  - destruct (accesses_field n e) eqn:E; auto. destruct e; try discriminate. destruct e; try discriminate. reflexivity.
  - cbn. rewrite app_nil_r. reflexivity.
Qed.
Lemma blocks_blk c label body na : blocks_in (blk_node c label body na) = blk_node c label body na :: blocks_in body.
Proof. destruct body; reflexivity. Qed.
Lemma blocks_ret k e : blocks_in (ret_node k e) = blocks_in e.
Proof. destruct k; reflexivity. Qed.
Definition body_ok (ss : list src) (ret : option src) (rho : env) : Prop :=
  Permutation (blocks_in (node_body ce ss ret rho)) (nodes_of ce (body_blocks ss ret rho)).
Lemma blocks_body ss ret rho :
  Forall (fun e => Permutation (blocks_in (node_of ce e rho)) (nodes_of ce (blocks e rho))) ss ->
  (forall e, ret = Some e -> Permutation (blocks_in (node_of ce e rho)) (nodes_of ce (blocks e rho))) ->
  body_ok ss ret rho.
Proof.
  intros Hs Hr. unfold body_ok, node_body, node_list, body_blocks. rewrite blocks_seq, flat_map_app, nodes_app. apply Permutation_app.
  - induction Hs as [|e ss He _ IH]; cbn [map flat_map]; [constructor|]. rewrite nodes_app. apply Permutation_app; auto.
  - destruct ret as [e|]; [|constructor]. cbn [flat_map]. rewrite app_nil_r, blocks_ret. auto.
Qed.
Lemma blocks_node : forall e,
  (forall rho, Permutation (blocks_in (node_of ce e rho)) (nodes_of ce (blocks e rho))) /\
  match e with SBlk _ _ _ ss ret _ => forall rho, body_ok ss ret rho | _ => True end.
Proof.
  induction e as [x|l|sup e sel args IHe IHargs|e IHe|e IHe|vs e IHe|label ps ls ss ret per IHss IHret] using src_ind'.
  - split; auto. intros rho. cbn [node_of]. rewrite blocks_rd. constructor.
  - split; auto. intros rho. destruct l as [l|ls]; cbn [node_of]; [destruct (lit_value l)|]; constructor.
  - split; auto. intros rho. rewrite node_send. destruct IHe as [Ie Be]. rewrite Forall_forall in IHargs.
    set (inl := fun b => match b with SBlk _ _ ls ss ret _ => body_blocks ss ret (add_layer ls rho) | _ => [] end).
    assert (IB : forall b, (b = e \/ In b args) -> Permutation (blocks_in (node_inl ce b rho)) (nodes_of ce (inl b))).
    { intros b Hb. destruct b as [| | | | | |label ps ls ss ret per]; try constructor. cbn [node_inl inl].
      destruct Hb as [Hb | Hb]; [subst e; apply Be|apply (proj2 (IHargs _ Hb))]. }
    assert (EB : blocks (SSend sup e sel args) rho = match special_form sup e sel args with
      | Some (KWhile _) => inl e ++ flat_map inl args
      | Some _ => blocks e rho ++ flat_map inl args
      | None => blocks e rho ++ flat_map (fun a => blocks a rho) args
      end) by reflexivity.
    rewrite EB. destruct (special_form sup e sel args) as [k|] eqn:Es.
    + apply special_shape in Es. destruct Es as (-> & Es & Ha). destruct k.
      * destruct Ha as (a & -> & Ha). cbn [node_special flat_map]. rewrite app_nil_r, nodes_app.
        replace (blocks_in (then_node k (node_of ce e rho) (node_inl ce a rho))) with (blocks_in (node_of ce e rho) ++ blocks_in (node_inl ce a rho))
          by (destruct k; reflexivity).
        apply Permutation_app; auto. apply IB; cbn; auto.
      * destruct Ha as (a & b & -> & Ha & Hb). cbn [node_special flat_map]. rewrite app_nil_r, !nodes_app.
        transitivity (blocks_in (node_of ce e rho) ++ blocks_in (node_inl ce a rho) ++ blocks_in (node_inl ce b rho)).
        { destruct k; cbn [else_node blocks_in]; try reflexivity. apply Permutation_app_head, Permutation_app_comm. }
        apply Permutation_app; auto. apply Permutation_app; apply IB; cbn; auto.
      * destruct Ha as (a & -> & Hr & Ha). cbn [node_special flat_map blocks_in]. rewrite app_nil_r, !nodes_app.
        apply Permutation_app; apply IB; cbn; auto.
      * destruct Ha as (a & -> & Ha). cbn [node_special flat_map]. rewrite app_nil_r, nodes_app.
        match goal with |- context [if ?c then NOr ?x ?y else NAnd ?x ?y] =>
          replace (blocks_in (if c then NOr x y else NAnd x y)) with (blocks_in x ++ blocks_in y) by (destruct c; reflexivity) end.
        apply Permutation_app; auto. apply IB; cbn; auto.
    + unfold node_message. rewrite nodes_app. destruct (adds_one sup sel args) eqn:Ea.
      * unfold adds_one in Ea. apply andb_true_iff in Ea. destruct Ea as [_ Ea]. destruct args as [|[|[[[]| |]|]| | | | |] [|]]; try discriminate.
        cbn [flat_map blocks_in blocks app nodes_of map]. rewrite app_nil_r. apply Ie.
      * transitivity (blocks_in (node_of ce e rho) ++ flat_map blocks_in (map (fun a => node_of ce a rho) args)); [destruct sup; reflexivity|].
        apply Permutation_app; auto. clear -IHargs. induction args as [|a args IH]; [constructor|]. cbn [map flat_map]. rewrite nodes_app.
        apply Permutation_app; [apply (proj1 (IHargs a (or_introl eq_refl)))|]. apply IH. intros b Hb. apply IHargs. right. exact Hb.
  - destruct IHe as [Ie _]. split; auto.
  - destruct IHe as [Ie _]. split; auto. intros rho. cbn [node_of blocks_in flat_map blocks]. rewrite !app_nil_r. apply Ie.
  - destruct IHe as [Ie _]. split; auto. intros rho. cbn [node_of blocks].
    replace (blocks_in (wr_nodes ce rho vs (node_of ce e rho))) with (blocks_in (node_of ce e rho)); auto.
    induction vs as [|v vs IH]; auto. cbn [wr_nodes fold_right]. rewrite blocks_wr. exact IH.
  - assert (B : forall rho, body_ok ss ret rho).
    { intros rho. apply blocks_body.
      - eapply Forall_impl; [|exact IHss]. intros e [H _]. auto.
      - intros e ->. apply (proj1 IHret). }
    split; auto. intros rho. cbn [node_of].
    change (Permutation (blocks_in (blk_node (reach 0 (node_body ce ss ret (add_level ps ls rho))) label (node_body ce ss ret (add_level ps ls rho)) (Datatypes.S (length ps))))
      (node_of ce (SBlk label ps ls ss ret per) rho :: nodes_of ce (body_blocks ss ret (add_level ps ls rho)))).
    rewrite blocks_blk. apply perm_skip. apply B.
Qed.
End Blocks.

(** * Methods *)
Section Meth.
Context {S X : Type}.
Variable ce : cenv.
Variable μ : amachine S X.
Hypothesis Hlaw : lawful (a_mach μ).
Notation o := (ast_ops μ).

Lemma exec_stmts n rho l r : homed rho -> forallb self_ok (l ++ [r]) = true ->
  forall s, flat (execq μ n (map (fun e => node_of ce e rho) (l ++ [r])) s) =
    (fix go (l : list src) (s : S) : out S X value :=
       match l with [] => oeval ce o r rho n s | e :: l => bind (oeval ce o e rho n s) (fun _ s => go l s) end) l s.
Proof.
  intros Hh. induction l as [|e l IH]; cbn [app map forallb]; intros Hs s; apply andb_true_iff in Hs; destruct Hs as [Hs1 Hs2].
  - cbn [execq]. apply (proj1 (exec_node ce μ Hlaw r Hs1)). exact Hh.
  - transitivity (bind (flat (exec μ (node_of ce e rho) n s)) (fun _ s => flat (execq μ n (map (fun e => node_of ce e rho) (l ++ [r])) s))).
    + destruct (l ++ [r]) eqn:E; [destruct l; discriminate|]. cbn [map execq]. rewrite flat_bind. reflexivity.
    + rewrite (proj1 (exec_node ce μ Hlaw e Hs1)) by exact Hh. apply bind_ext. intros _ s1. apply IH. exact Hs2.
Qed.
Lemma exec_seq_node l n s : l <> [] -> exec μ (seq_node l) n s = execq μ n l s.
Proof. destruct l as [|x [|y l]]; [congruence|reflexivity|reflexivity]. Qed.
Lemma stmts_method n rho ss ret : homed rho -> depth rho = 0 -> forall s,
  bind ((fix go (l : list src) (s : S) : out S X value :=
       match l with [] => oeval ce o (match ret with Some e => e | None => SVar t_self end) rho n s
       | e :: l => bind (oeval ce o e rho n s) (fun _ s => go l s) end) ss s) (fun v s => Retn v s) =
  oeval_method ce o ss ret rho n s.
Proof.
  intros Hh Hd. induction ss as [|e ss IH]; intros s; cbn [oeval_method].
  - destruct ret as [e|]; [reflexivity|]. cbn [oeval]. unfold o_read. rewrite Hh, Hd. reflexivity.
  - rewrite bind_assoc. apply bind_ext. intros _ s1. apply IH.
Qed.

(** Trivial methods and their bodies. *)
Lemma triv_bare nd : triv_of (bare nd) = triv_of nd.
Proof.
  destruct nd; try reflexivity.
  - destruct k, nd; reflexivity.
  - destruct l as [|x [|y [|z l]]]; try reflexivity; cbn [bare map triv_of].
    + destruct y; try reflexivity. destruct k; try reflexivity. destruct x; try reflexivity. destruct k, x; reflexivity.
    + destruct (bare y) as [| | | | |[|]| | | | | | | | | | | | | | | | | | | |], y as [| | | | |[|]| | | | | | | | | | | | | | | | | | | |]; reflexivity.
Qed.
(** A node that sets a field to a variable comes from [f := x]. *)
Lemma setter_source e rho k i v j : ok_src e = true -> node_of ce e rho = NFldW k i (NRead v j) -> exists f x, e = SAsgn [f] (SVar x).
Proof.
  destruct e as [x|l|sup e0 sel args|e0|e0|vs e0|label ps ls ss ret per]; intros Hok H.
  - exfalso. cbn [node_of] in H. unfold rd_node in H. destruct (resolve x rho) as [[? ?]|]; [destruct (text_eqb x t_self); discriminate|].
    destruct (position x _); [discriminate|].
    destruct (text_eqb x t_nil); [discriminate|]. destruct (text_eqb x t_true); [discriminate|].
    destruct (text_eqb x t_false); [discriminate|]. destruct (ce_known ce x); discriminate.
  - exfalso. destruct l as [l|]; cbn [node_of] in H; [destruct (lit_value l)|]; discriminate.
  - exfalso. rewrite node_send in H. destruct (special_form _ _ _ _) as [[c|c|b|b]|].
    + unfold node_special in H. destruct args as [|a [|]]; try discriminate. destruct c; discriminate.
    + unfold node_special in H. destruct args as [|a [|a2 [|]]]; try discriminate. destruct c; discriminate.
    + unfold node_special in H. destruct args as [|a [|]]; discriminate.
    + unfold node_special in H. destruct args as [|a [|]]; try discriminate. destruct b; discriminate.
    + unfold node_message in H. destruct (adds_one _ _ _); [discriminate|]. destruct sup; discriminate.
  - discriminate.
  - discriminate.
  - cbn [node_of] in H.
    assert (W : forall vs d, wr_nodes ce rho vs d = NRead v j -> vs = [] /\ d = NRead v j).
    { intros us d Hd. destruct us as [|u us]; auto. exfalso. cbn [wr_nodes fold_right] in Hd. unfold wr_node at 1 in Hd.
      destruct (resolve u rho) as [[? ?]|]; [discriminate|]. destruct (position u _); [|discriminate].
      match type of Hd with context [accesses_field ?a ?b] => destruct (accesses_field a b) end; discriminate. }
    assert (V : node_of ce e0 rho = NRead v j -> exists x, e0 = SVar x).
    { intros Hv. destruct e0 as [x|l|sup e1 sel args|e1|e1|us e1|label ps ls ss ret per]; eauto; exfalso.
      - destruct l as [l|]; cbn [node_of] in Hv; [destruct (lit_value l)|]; discriminate.
      - rewrite node_send in Hv. destruct (special_form _ _ _ _) as [[c|c|b|b]|].
        + unfold node_special in Hv. destruct args as [|a [|]]; try discriminate. destruct c; discriminate.
        + unfold node_special in Hv. destruct args as [|a [|a2 [|]]]; try discriminate. destruct c; discriminate.
        + unfold node_special in Hv. destruct args as [|a [|]]; discriminate.
        + unfold node_special in Hv. destruct args as [|a [|]]; try discriminate. destruct b; discriminate.
        + unfold node_message in Hv. destruct (adds_one _ _ _); [discriminate|]. destruct sup; discriminate.
      - discriminate.
      - discriminate.
      - cbn [node_of] in Hv. destruct (W _ _ Hv) as [-> _]. cbn [ok_src] in Hok. rewrite andb_false_r in Hok. discriminate.
      - cbn [node_of] in Hv. unfold blk_node in Hv. match type of Hv with match ?x with _ => _ end = _ => destruct x end; discriminate. }
    destruct vs as [|f vs]; [discriminate|]. cbn [wr_nodes fold_right] in H. fold (wr_nodes ce rho vs (node_of ce e0 rho)) in H.
    unfold wr_node in H. destruct (resolve f rho) as [[? ?]|]; [discriminate|]. destruct (position f _); [|discriminate].
    destruct (accesses_field _ _); [discriminate|]. injection H as _ _ H. destruct (W _ _ H) as [-> H2]. destruct (V H2) as [x ->]. eauto.
  - exfalso. cbn [node_of] in H. unfold blk_node in H. match type of H with match ?x with _ => _ end = _ => destruct x end; discriminate.
Qed.
Lemma resolve_one x l k v : resolve x [l] = Some (k, v) -> k = 0.
Proof. cbn [resolve]. destruct (in_level x l); [|discriminate]. intros H. injection H as <- <-. reflexivity. Qed.
Lemma setter_level e l k i v j : ok_src e = true -> node_of ce e [l] = NFldW k i (NRead v j) -> j = 0.
Proof.
  intros Hok H. destruct (setter_source _ _ _ _ _ _ Hok H) as (f & x & ->). cbn [node_of wr_nodes fold_right] in H.
  unfold wr_node in H. destruct (resolve f [l]) as [[? ?]|]; [discriminate|]. destruct (position f _); [|discriminate].
  destruct (accesses_field _ _); [discriminate|]. injection H as _ _ H. unfold rd_node in H.
  destruct (resolve x [l]) as [[k' v']|] eqn:E.
  - apply resolve_one in E. subst k'. destruct (text_eqb x t_self); [discriminate|]. congruence.
  - destruct (position x _); [discriminate|].
    destruct (text_eqb x t_nil); [discriminate|]. destruct (text_eqb x t_true); [discriminate|].
    destruct (text_eqb x t_false); [discriminate|]. destruct (ce_known ce x); discriminate.
Qed.
(** Invoking a trivial method is executing its body. *)
Lemma triv_exec nd t na n s : triv_of nd = Some t -> na <= 3 ->
  (forall k i e, nd <> NFldW k i e) ->
  (forall k i v j, nd = NSeq [NFldW k i (NRead v j); NSelf 0] -> j = 0) ->
  flat (exec μ nd n s) = exec_triv μ t na s.
Proof.
  intros H Hna Hw Hl. unfold exec_triv. apply Nat.leb_le in Hna. rewrite Hna.
  destruct nd; try discriminate; cbn [triv_of] in H.
  - injection H as <-. reflexivity.
  - injection H as <-. apply flat_lift.
  - injection H as <-. apply flat_lift.
  - exfalso. eapply Hw. reflexivity.
  - injection H as <-. apply flat_lift.
  - injection H as <-. apply flat_lift.
  - destruct l as [|x [|y [|]]]; try discriminate; destruct y; try discriminate; destruct k; try discriminate.
    destruct x; try discriminate. cbn [triv_write] in H. destruct k; [|discriminate]. destruct x; try discriminate. destruct v; [discriminate|].
    injection H as <-. rewrite (Hl _ _ _ _ eq_refl). cbn [exec]. rewrite !flat_bind, flat_lift, bind_assoc. apply bind_ext. intros v s1.
    rewrite flat_bind, flat_lift, bind_assoc. apply bind_ext. intros u s2. cbn [flat bind]. apply flat_lift.
Qed.

Lemma no_seq e rho x k : ok_src e = true -> node_of ce e rho <> NSeq [x; NSelf k].
Proof.
  destruct e as [y|l|sup e0 sel args|e0|e0|vs e0|label ps ls ss ret per]; intros Hok H.
  - cbn [node_of] in H. unfold rd_node in H. destruct (resolve y rho) as [[? ?]|]; [destruct (text_eqb y t_self); discriminate|].
    destruct (position y _); [discriminate|].
    destruct (text_eqb y t_nil); [discriminate|]. destruct (text_eqb y t_true); [discriminate|].
    destruct (text_eqb y t_false); [discriminate|]. destruct (ce_known ce y); discriminate.
  - destruct l as [l|]; cbn [node_of] in H; [destruct (lit_value l)|]; discriminate.
  - rewrite node_send in H. destruct (special_form _ _ _ _) as [[c|c|b|b]|].
    + unfold node_special in H. destruct args as [|a [|]]; try discriminate. destruct c; discriminate.
    + unfold node_special in H. destruct args as [|a [|a2 [|]]]; try discriminate. destruct c; discriminate.
    + unfold node_special in H. destruct args as [|a [|]]; discriminate.
    + unfold node_special in H. destruct args as [|a [|]]; try discriminate. destruct b; discriminate.
    + unfold node_message in H. destruct (adds_one _ _ _); [discriminate|]. destruct sup; discriminate.
  - discriminate.
  - discriminate.
  - destruct vs as [|v vs]; [discriminate|]. cbn [node_of] in H.
    cbn [wr_nodes fold_right] in H. unfold wr_node at 1 in H. destruct (resolve v rho) as [[? ?]|]; [discriminate|].
      destruct (position v _); [|discriminate]. match type of H with context [accesses_field ?a ?b] => destruct (accesses_field a b) end; discriminate.
  - cbn [node_of] in H. unfold blk_node in H. match type of H with match ?x with _ => _ end = _ => destruct x end; discriminate.
Qed.
Theorem ast_method ps ls ss ret am : forallb ok_src ss = true -> ok_ret ret = true ->
  forallb self_ok ss = true -> self_ret ret = true -> no_self (map fst ls) = true ->
  compile_ast ce ps ls ss ret = Ok am -> (length ps <= 2 \/ exists c b, am = AMeth c b) -> answers_assignment ss ret = false ->
  forall n s, run_ast μ am n s = oeval_method ce o ss ret [Level [ls] (t_self :: ps)] n s.
Proof.
  intros O1 O2 S1 S2 Hl Hc Hna Haa n s.
  destruct (compile_good ce ps ls ss ret am O1 O2 S1 S2 Hl Hc) as (c & nds & -> & Hn & Hr). set (rho := [Level [ls] (t_self :: ps)]) in *.
  assert (Hh : homed rho).
  { unfold homed, rho. cbn [resolve]. unfold in_level. cbn [lv_layers lv_args in_layers]. rewrite (in_layer_self _ Hl). reflexivity. }
  set (r := match ret with Some e => e | None => SVar t_self end) in *.
  assert (Hsr : self_ok r = true) by (unfold r; destruct ret; [exact S2|reflexivity]).
  assert (Hor : ok_src r = true) by (unfold r; destruct ret; [exact O2|reflexivity]).
  assert (Hs : forallb self_ok (ss ++ [r]) = true) by (rewrite forallb_app; cbn [forallb]; rewrite S1, Hsr; reflexivity).
  assert (Hne : nds <> []).
  { intros ->. apply (f_equal (@length node)) in Hn. unfold method_nodes in Hn. rewrite !map_length, app_length in Hn. cbn in Hn. lia. }
  assert (F : bind (flat (exec μ (seq_node nds) n s)) (fun v s => Retn v s) = oeval_method ce o ss ret rho n s).
  { rewrite <- exec_bare, bare_seq, Hn, exec_seq_node by (unfold method_nodes; destruct ss; discriminate).
    unfold method_nodes. fold r. rewrite (exec_stmts n rho ss r Hh Hs s). apply stmts_method; auto. }
  assert (Hsafe : c = false -> safe (exec μ (seq_node nds) n s)).
  { intros ->. apply exec_safe. rewrite <- loc_bare, bare_seq, Hn, loc_seq. destruct (existsb loc _) eqn:E; auto. exfalso.
    apply existsb_exists in E. destruct E as (x & Hx & E). unfold method_nodes in Hx. apply in_map_iff in Hx. destruct Hx as (e & <- & Hx).
    destruct (proj1 (loc_node ce e) _ E) as [R _]. apply in_app_iff in Hx.
    assert (Q : existsb rets ss || match ret with Some e => rets e | None => false end = true).
    { apply orb_true_iff. destruct Hx as [Hx|[Hx|[]]]; [left; apply existsb_exists; eauto|right].
      subst e. unfold r in R. destruct ret; [exact R|discriminate]. }
    discriminate (Hr Q). }
  unfold assemble_ast in *. destruct c; [cbn [run_ast]; rewrite (answer_flat true) by discriminate; exact F|].
  destruct (triv_of (seq_node nds)) as [t|] eqn:Et.
  - destruct Hna as [Hna|(? & ? & Hna)]; [|discriminate]. cbn [run_ast].
    rewrite <- F. f_equal. symmetry. apply triv_exec; auto; try lia.
    + intros k i e E. unfold method_nodes in Hn.
      assert (Hone : nds = [NFldW k i e]) by (destruct nds as [|? [|]]; cbn [seq_node] in E; congruence). subst nds.
      assert (Hs0 : ss = []).
      { apply (f_equal (@length node)) in Hn. rewrite !map_length, app_length in Hn. cbn in Hn. destruct ss; [reflexivity|cbn in Hn; lia]. }
      subst ss. cbn [app map bare] in Hn. injection Hn as Hn. symmetry in Hn. cbn [seq_node] in Et. rewrite <- triv_bare in Et. cbn [bare] in Et.
      rewrite <- Hn in Et. destruct k as [|k]; [|rewrite Hn in Et; discriminate].
      destruct (bare e) eqn:Eb; try (rewrite Hn in Et; discriminate).
      destruct (setter_source _ _ _ _ _ _ Hor Hn) as (f & x & Er). unfold r in Er. destruct ret as [e1|]; [|discriminate]. subst e1. discriminate.
    + intros k i v j E.
      assert (Htwo : nds = [NFldW k i (NRead v j); NSelf 0]).
      { destruct nds as [|x [|y nds]]; cbn [seq_node] in E; [discriminate| |congruence]. exfalso. subst x. cbn [map] in Hn.
        unfold method_nodes in Hn. assert (ss = []).
        { apply (f_equal (@length node)) in Hn. rewrite !map_length, app_length in Hn. cbn in Hn. destruct ss; [reflexivity|cbn in Hn; lia]. }
        subst ss. cbn [app map bare] in Hn. injection Hn as Hn. symmetry in Hn. exact (no_seq _ _ _ _ Hor Hn). }
      subst nds. unfold method_nodes in Hn. cbn [map bare] in Hn. destruct ss as [|e0 ss]; [discriminate|]. cbn [app map] in Hn. injection Hn as Hn _.
      symmetry in Hn. apply (setter_level e0 _ _ _ _ _ ) in Hn; auto. cbn [forallb] in O1. apply andb_true_iff in O1. tauto.
  - cbn [run_ast]. rewrite (answer_flat false) by auto. exact F.
Qed.
End Meth.

(** * The blocks of a method *)
Definition inner (p : src * env) : Prop := self_ok (fst p) = true /\ homed (snd p) /\ is_block (fst p) = true.
Lemma inner_blocks : forall e, self_ok e = true ->
  (forall rho, homed rho -> Forall inner (blocks e rho)) /\
  match e with SBlk _ _ _ ss ret _ => forall rho, homed rho -> Forall inner (body_blocks ss ret rho) | _ => True end.
Proof.
  induction e as [x|l|sup e sel args IHe IHargs|e IHe|e IHe|vs e IHe|label ps ls ss ret per IHss IHret] using src_ind'; intros Hself.
  - split; auto. intros. constructor.
  - split; auto. intros. constructor.
  - split; auto. intros rho Hh. cbn [self_ok] in Hself. apply andb_true_iff in Hself. destruct Hself as [S1 S2]. rewrite forallb_forall in S2.
    rewrite Forall_forall in IHargs. destruct (IHe S1) as [Ie Be].
    set (inl := fun b => match b with SBlk _ _ ls ss ret _ => body_blocks ss ret (add_layer ls rho) | _ => [] end).
    assert (EB : blocks (SSend sup e sel args) rho = match special_form sup e sel args with
      | Some (KWhile _) => inl e ++ flat_map inl args
      | Some _ => blocks e rho ++ flat_map inl args
      | None => blocks e rho ++ flat_map (fun a => blocks a rho) args
      end) by reflexivity.
    rewrite EB.
    assert (IB : forall b, (b = e \/ In b args) -> Forall inner (inl b)).
    { intros b Hb. assert (Sb : self_ok b = true) by (destruct Hb as [-> | Hb]; auto).
      destruct b as [| | | | | |label ps ls ss ret per]; try constructor. cbn [inl]. cbn [self_ok] in Sb. repeat rewrite andb_true_iff in Sb.
      destruct Hb as [Hb | Hb]; [subst e; apply Be|apply (proj2 (IHargs _ Hb (S2 _ Hb)))]; apply homed_layer; tauto. }
    assert (FI : Forall inner (flat_map inl args)).
    { apply Forall_flat_map. apply Forall_forall. auto. }
    assert (FA : Forall inner (flat_map (fun a => blocks a rho) args)).
    { apply Forall_flat_map. apply Forall_forall. intros a Ha. apply (proj1 (IHargs a Ha (S2 _ Ha))). exact Hh. }
    destruct (special_form sup e sel args) as [[]|]; apply Forall_app; split; auto.
  - destruct (IHe Hself) as [Ie _]. split; auto.
  - destruct (IHe Hself) as [Ie _]. split; auto.
  - destruct (IHe Hself) as [Ie _]. split; auto.
  - pose proof Hself as Hs0. cbn [self_ok] in Hself. repeat rewrite andb_true_iff in Hself. destruct Hself as [[[S1 S2] S3] S4].
    assert (B : forall rho, homed rho -> Forall inner (body_blocks ss ret rho)).
    { intros rho Hh. unfold body_blocks. apply Forall_app. split.
      - apply Forall_flat_map. rewrite Forall_forall in *. rewrite forallb_forall in S3. intros e He. apply (proj1 (IHss e He (S3 e He))). exact Hh.
      - destruct ret as [e|]; [|constructor]. apply (proj1 (IHret S4)). exact Hh. }
    split; auto. intros rho Hh.
    change (Forall inner ((SBlk label ps ls ss ret per, rho) :: body_blocks ss ret (add_level ps ls rho))). constructor.
    + split; [exact Hs0|]. auto.
    + apply B. apply homed_level; auto.
Qed.
Definition label_of (nd : node) (b : src) : Prop :=
  match b, nd with
  | SBlk l _ _ _ _ _, NBlk _ l' _ _ _ => l' = l
  | SBlk l _ _ _ _ _, NBlkT _ l' _ _ => l' = l
  | _, _ => False
  end.
Definition params (b : src) : list text := match b with SBlk _ ps _ _ _ _ => ps | _ => [] end.
Section Block.
Context {S X : Type}.
Variable ce : cenv.
Variable μ : amachine S X.
Hypothesis Hlaw : lawful (a_mach μ).
Notation o := (ast_ops μ).
Lemma ast_block nd b rho : inner (b, rho) -> bare nd = node_of ce b rho ->
  (length (params b) <= 2 \/ exists c l d ls na, nd = NBlk c l d ls na) ->
  forall n s, run_block μ nd n s = oeval_closure ce o b rho n s.
Proof.
  intros (Hself & Hh & Hb) En Hna n s. cbn [fst snd] in *.
  destruct b as [| | | | | |label ps ls ss ret per]; try discriminate. cbn [oeval_closure params] in *.
  pose proof (proj2 (exec_node ce μ Hlaw _ Hself)) as Hx. cbn iota in Hx.
  pose proof Hself as Hs0. cbn [self_ok] in Hs0. repeat rewrite andb_true_iff in Hs0. destruct Hs0 as [[[S1 S2] S3] S4].
  pose proof (homed_level ps ls rho S1 S2 Hh) as Hh'. rewrite <- (Hx _ n s Hh').
  set (rho' := add_level ps ls rho) in *. set (body := node_body ce ss ret rho') in *.
  change (bare nd = blk_node (reach 0 body) label body (Datatypes.S (length ps))) in En.
  assert (Hd : depth rho' <> 0).
  { unfold rho', add_level, depth. pose proof (homed_ne _ Hh). destruct rho; [congruence|]. cbn. lia. }
  assert (Hs : safe (exec μ body n s)).
  { apply exec_safe. destruct (loc body) eqn:E; auto. exfalso. apply Hd.
    exact (proj2 (proj2 (loc_node ce (SBlk label ps ls ss ret per)) rho' E)). }
  assert (T : forall t c na, nd = NBlkT c label t na -> na = Datatypes.S (length ps) -> flat (exec μ body n s) = exec_triv μ t na s ->
    run_block μ nd n s = bind (flat (exec μ body n s)) (fun v s => Retn v s)).
  { intros t c na -> Hn E. cbn [run_block]. rewrite E. reflexivity. }
  assert (L : forall t, exec_triv μ t (Datatypes.S (length ps)) s = exec_triv μ t 0 s \/ exists c l d ls na, nd = NBlk c l d ls na).
  { intros t. destruct Hna as [Hna|Hna]; auto. left. unfold exec_triv. replace (Datatypes.S (length ps) <=? 3) with true; [reflexivity|].
    symmetry. apply Nat.leb_le. lia. }
  destruct body eqn:Eb; cbn [blk_node] in En;
    try (destruct nd; try discriminate; cbn [bare] in En; injection En as _ _ En _; cbn [run_block];
         rewrite <- (exec_bare μ nd), En, answer_flat by auto; reflexivity).
  all: destruct nd; try discriminate; cbn [bare] in En; injection En as -> -> -> ->.
  all: match goal with |- run_block _ (NBlkT _ _ ?t _) _ _ = _ => destruct (L t) as [E|(? & ? & ? & ? & ? & E)]; [|discriminate] end.
  all: eapply T; [reflexivity|reflexivity|]; rewrite E; try apply flat_lift; reflexivity.
Qed.
End Block.
Lemma blocks_assemble c nds na : blocks_of (assemble_ast c (seq_node nds) na) = blocks_in (seq_node nds).
Proof.
  unfold assemble_ast. destruct c; [reflexivity|]. destruct (triv_of (seq_node nds)) as [t|] eqn:E; [|reflexivity].
  cbn [blocks_of]. destruct (seq_node nds); try discriminate; try reflexivity.
  - cbn [triv_of triv_write] in E. destruct k; [|discriminate]. destruct n; try discriminate. reflexivity.
  - destruct l as [|x [|y [|]]]; try discriminate; cbn [triv_of] in E; destruct y; try discriminate; destruct k; try discriminate.
    destruct x; try discriminate. cbn [triv_write] in E. destruct k; [|discriminate]. destruct x; try discriminate. reflexivity.
Qed.
Theorem ast_blocks ce ps ls ss ret am : forallb ok_src ss = true -> ok_ret ret = true ->
  forallb self_ok ss = true -> self_ret ret = true -> no_self (map fst ls) = true ->
  compile_ast ce ps ls ss ret = Ok am ->
  exists l, Permutation l (blocks_of am) /\
    Forall2 (fun nd p => bare nd = node_of ce (fst p) (snd p) /\ inner p) l (body_blocks ss ret [Level [ls] (t_self :: ps)]).
Proof.
  intros O1 O2 S1 S2 Hl Hc.
  destruct (compile_good ce ps ls ss ret am O1 O2 S1 S2 Hl Hc) as (c & nds & -> & Hn & _). set (rho := [Level [ls] (t_self :: ps)]) in *.
  assert (Hh : homed rho).
  { unfold homed, rho. cbn [resolve]. unfold in_level. cbn [lv_layers lv_args in_layers]. rewrite (in_layer_self _ Hl). reflexivity. }
  rewrite blocks_assemble.
  assert (P : Permutation (nodes_of ce (body_blocks ss ret rho)) (map bare (blocks_in (seq_node nds)))).
  { rewrite <- blocks_bare, bare_seq, Hn, blocks_seq. unfold method_nodes, body_blocks. rewrite map_app, flat_map_app, nodes_app.
    apply Permutation_app.
    - clear. induction ss as [|e ss IH]; [constructor|]. cbn [map flat_map]. rewrite nodes_app. apply Permutation_app; auto.
      symmetry. apply (proj1 (blocks_node ce e)).
    - cbn [map flat_map]. rewrite app_nil_r. destruct ret as [e|]; [symmetry; apply (proj1 (blocks_node ce e))|].
      cbn [node_of]. rewrite blocks_rd. constructor. }
  destruct (Permutation_map_inv _ _ P) as (l & E & Hp). exists l. split; [symmetry; exact Hp|].
  assert (I : Forall inner (body_blocks ss ret rho)).
  { unfold body_blocks. apply Forall_app. split.
    - apply Forall_flat_map. rewrite Forall_forall. rewrite forallb_forall in S1. intros e He. apply (proj1 (inner_blocks e (S1 e He))). exact Hh.
    - destruct ret as [e|]; [|constructor]. apply (proj1 (inner_blocks e S2)). exact Hh. }
  clear -E I. revert l E. induction I as [|p bs Hp _ IH]; intros l E; destruct l as [|x l]; try discriminate; constructor.
  - cbn in E. injection E as E _. auto.
  - apply IH. cbn in E. injection E as _ E. exact E.
Qed.
Lemma label_node ce nd b rho : is_block b = true -> bare nd = node_of ce b rho -> label_of nd b.
Proof.
  destruct b as [| | | | | |label ps ls ss ret per]; try discriminate. intros _ H. cbn [node_of] in H. unfold blk_node in H.
  match type of H with _ = match ?x with _ => _ end => destruct x end; destruct nd; try discriminate; cbn [bare] in H; injection H; intros; subst; reflexivity.
Qed.
