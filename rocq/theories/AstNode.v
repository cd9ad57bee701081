(** The node of an expression, straight from the names it resolves to, and what executing it
    means. *)
From Coq Require Import ZArith Bool String Ascii List Lia.
From Verif Require Import Base LexModel ParseModel BcModel BcInterp BcSpec BcCode BcEval AstModel AstSpec.
Import ListNotations.
Open Scope nat_scope.
Open Scope list_scope.

(** * Equations of the evaluator *)
Section Eq.
Context {S X : Type}.
Variable ce : cenv.
Variable o : ops S X.
Notation out := (out S X).
Notation oeval := (oeval ce o).
Notation oeval_block := (oeval_block ce o).

Definition o_inline (b : src) (rho : env) (n : nat) (s : S) : out value :=
  match b with
  | SBlk _ _ ls ss ret _ => oeval_block ss ret (add_layer ls rho) n s
  | _ => Stuck
  end.
Fixpoint o_args (l : list src) (rho : env) (n : nat) (vs : list value) (s : S) : out (list value) :=
  match l with
  | [] => Done vs s
  | a :: l => bind (oeval a rho n s) (fun v s => o_args l rho n (vs ++ [v]) s)
  end.
Definition o_special (k : special) (r : src) (args : list src) (rho : env) (n : nat) (s : S) : out value :=
  match k, args with
  | KThen k, [a] =>
      bind (oeval r rho n s) (fun v s =>
      bind (o_test o false k v s) (fun t s =>
      if t then Done (left_value k v) s else o_inline a rho n s))
  | KAndOr b, [a] =>
      bind (oeval r rho n s) (fun v s =>
      bind (o_test o true (if b then OnTrue else OnFalse) v s) (fun t s =>
      if t then Done (som_bool b) s else o_inline a rho n s))
  | KElse k, [a; b] =>
      bind (oeval r rho n s) (fun v s =>
      bind (o_test o false k v s) (fun t s =>
      if t then o_inline b rho n s else o_inline a rho n s))
  | KWhile b, [a] =>
      o_while o n (o_inline r rho) (o_inline a rho) (if b then OnFalse else OnTrue) s
  | _, _ => Stuck
  end.
Definition o_message (sup : bool) (r : src) (sel : text) (args : list src) (rho : env) (n : nat) (s : S)
  : out value :=
  if adds_one sup sel args then bind (oeval r rho n s) (fun v s => o_plus o v s)
  else
  bind (if sup then o_ready o sel s else Done tt s) (fun _ s =>
  bind (oeval r rho n s) (fun v s =>
  bind (o_args args rho n [v] s) (fun vs s =>
  if sup then o_super o sel vs s else o_send o sel vs s))).

Lemma o_while_ext n (t t' b b' : nat -> S -> out value) k s :
  (forall n s, t n s = t' n s) -> (forall n s, b n s = b' n s) ->
  o_while o n t b k s = o_while o n t' b' k s.
Proof.
  intros Ht Hb. revert s. induction n as [|n IH]; intros s; cbn [o_while]; auto.
  rewrite Ht. apply bind_ext. intros v s1. apply bind_ext. intros c s2. destruct c; auto.
  rewrite Hb. apply bind_ext. auto.
Qed.
Definition o_inline0 (rho : env) (b : src) (n : nat) (s : S) : out value :=
    match b with
    | SBlk _ _ ls ss ret _ =>
        let rho := add_layer ls rho in
        (fix go (ss : list src) (s : S) : out value :=
           match ss with
           | [] => match ret with
                   | Some e => bind (oeval e rho n s) (fun v s => o_return o rho v s)
                   | None => Done VNil s
                   end
           | e :: ss' => match ss', ret with
                         | [], None => oeval e rho n s
                         | _, _ => bind (oeval e rho n s) (fun _ s => go ss' s)
                         end
           end) ss s
    | _ => Stuck
    end.
Lemma o_inline0_eq rho b n s : o_inline0 rho b n s = o_inline b rho n s.
Proof.
  destruct b; auto. simpl. revert s. induction ss as [|e ss IH]; intros s; auto.
  cbn [AstSpec.oeval_block]. destruct ss, ret; auto; apply bind_ext; intros; apply IH.
Qed.
Lemma o_args0_eq rho n (sup : bool) sel l : forall vs s,
  (fix go (l : list src) (vs : list value) (s : S) : out value :=
             match l with
             | [] => if sup then o_super o sel vs s else o_send o sel vs s
             | a :: l => bind (oeval a rho n s) (fun v s => go l (vs ++ [v]) s)
             end) l vs s =
  bind (o_args l rho n vs s) (fun vs s =>
  if sup then o_super o sel vs s else o_send o sel vs s).
Proof.
  induction l as [|a l IH]; intros vs s; simpl; auto.
  rewrite bind_assoc. apply bind_ext. intros. apply IH.
Qed.
Lemma oeval_send sup r sel args rho n s :
  oeval (SSend sup r sel args) rho n s =
  match special_form sup r sel args with
  | Some k => o_special k r args rho n s
  | None => o_message sup r sel args rho n s
  end.
Proof.
  destruct (special_form sup r sel args) as [k|] eqn:E.
  - apply special_shape in E as E'. destruct E' as (-> & Es & Ha).
    cbn [AstSpec.oeval]. rewrite E.
    destruct k.
    + destruct Ha as (a & -> & Ha). apply bind_ext. intros v s1. apply bind_ext. intros c s2. destruct c; auto.
      apply (o_inline0_eq rho a n s2).
    + destruct Ha as (a & b & -> & Ha & Hb). apply bind_ext. intros v s1. apply bind_ext. intros c s2. destruct c.
      apply (o_inline0_eq rho b n s2). apply (o_inline0_eq rho a n s2).
    + destruct Ha as (a & -> & Hr & Ha). apply o_while_ext; intros.
      apply (o_inline0_eq rho r n0 s0). apply (o_inline0_eq rho a n0 s0).
    + destruct Ha as (a & -> & Ha). apply bind_ext. intros v s1. apply bind_ext. intros c s2. destruct c; auto.
      apply (o_inline0_eq rho a n s2).
  - cbn [AstSpec.oeval]. rewrite E. unfold o_message. destruct (adds_one sup sel args); auto.
    apply bind_ext. intros. apply bind_ext. intros. apply o_args0_eq.
Qed.
End Eq.

(** * The evaluator of BcSpec *)
Section Bc.
Context {S X : Type}.
Variable ce : cenv.
Variable μ : machine S X.
Notation o := (bc_ops μ).
Notation fields := (ce_fields ce).

Lemma bc_writes rho vs : forall v s, o_writes ce o rho vs v s = write_vars fields μ rho vs v s.
Proof. induction vs as [|x vs IH]; intros v s; simpl; auto. apply bind_ext. intros. apply IH. Qed.
Lemma bc_while n t b k s : o_while o n t b k s = repeat_while n t b k s.
Proof.
  reflexivity.
Qed.
Lemma bc_read rho x s : o_read ce o rho x s = read_var fields μ rho x s.
Proof.
  unfold o_read, read_var. destruct (resolve x rho) as [[k v]|]; auto. destruct (position x _); auto.
  destruct (text_eqb x t_nil), (text_eqb x t_true), (text_eqb x t_false), (ce_known ce x); auto.
Qed.
Lemma bc_lit l s : o_lit o l s = eval_lit μ l s.
Proof. destruct l; reflexivity. Qed.
Lemma bc_eval : forall e,
  (forall rho n s, oeval ce o e rho n s = eval fields e μ rho n s) /\
  match e with
  | SBlk _ _ _ ss ret _ => forall rho n s, oeval_block ce o ss ret rho n s = eval_block fields ss ret μ rho n s
  | _ => True
  end.
Proof.
  induction e as [x|l|sup e sel args IHe IHargs|e IHe|e IHe|vs e IHe|label ps ls ss ret per IHss IHret] using src_ind'.
  - split; auto. intros. apply bc_read.
  - split; auto. intros. apply bc_lit.
  - split; auto. intros rho n s. rewrite oeval_send, eval_send. destruct IHe as [Ie Be]. rewrite Forall_forall in IHargs.
    assert (IB : forall b, (b = e \/ In b args) -> forall n s, o_inline ce o b rho n s = eval_inline fields b μ rho n s).
    { intros b Hb k u. destruct b; auto. simpl. destruct Hb as [Hb | Hb]; [subst e; apply Be|apply (IHargs _ Hb)]. }
    destruct (special_form sup e sel args) as [k|] eqn:Es.
    + apply special_shape in Es. destruct Es as (-> & Es & Ha). destruct k.
      * destruct Ha as (a & -> & Ha). cbn [o_special eval_special]. rewrite Ie. apply bind_ext. intros v s1.
        cbn [o_test bc_ops bind]. destruct (takes k v); auto. apply IB; simpl; auto.
      * destruct Ha as (a & b & -> & Ha & Hb). cbn [o_special eval_special]. rewrite Ie. apply bind_ext. intros v s1.
        cbn [o_test bc_ops bind]. destruct (takes k v); apply IB; simpl; auto.
      * destruct Ha as (a & -> & Hr & Ha). cbn [o_special eval_special].
        rewrite bc_while. apply repeat_while_ext; intros; apply IB; simpl; auto.
      * destruct Ha as (a & -> & Ha). cbn [o_special eval_special]. rewrite Ie. apply bind_ext. intros v s1.
        cbn [o_test bc_ops bind]. destruct (takes _ v); auto. apply IB; simpl; auto.
    + unfold o_message, eval_message.
      assert (IA : forall l, incl l args -> forall vs s, o_args ce o l rho n vs s = eval_args fields l μ rho n vs s).
      { induction l as [|a l IH]; intros Hi vs u; simpl; auto. destruct (IHargs a) as [Ia _]; [apply Hi; left; auto|].
        rewrite Ia. apply bind_ext. intros. apply IH. intros y Hy. apply Hi. right; auto. }
      destruct (adds_one sup sel args) eqn:Ea.
      * unfold adds_one in Ea. apply andb_true_iff in Ea. destruct Ea as [Ea E1]. apply andb_true_iff in Ea. destruct Ea as [E2 E3].
        destruct sup; [discriminate|]. apply text_eqb_eq in E3. subst sel.
        destruct args as [|[|[[[]| |]|]| | | | |] [|]]; try discriminate. apply Z.eqb_eq in E1. subst.
        rewrite Ie. apply bind_ext. reflexivity.
      * assert (E0 : (if sup then o_ready o sel s else Done tt s) = Done tt s) by (destruct sup; reflexivity).
        rewrite E0. cbn [bind]. rewrite Ie. apply bind_ext. intros v s1. rewrite IA by apply incl_refl.
        apply bind_ext. intros. destruct sup; reflexivity.
  - split; auto. intros. cbn [oeval eval]. rewrite (proj1 IHe). reflexivity.
  - split; auto. intros. cbn [oeval eval]. rewrite (proj1 IHe). reflexivity.
  - split; auto. intros. cbn [oeval eval]. rewrite (proj1 IHe). apply bind_ext. intros.
    cbn [o_rev bc_ops]. rewrite bc_writes. reflexivity.
  - split; auto. intros rho n. rewrite Forall_forall in IHss. induction ss as [|e ss IH]; intros s; cbn [oeval_block eval_block].
    + destruct ret as [e|]; auto. rewrite (proj1 IHret). apply bind_ext. intros. unfold o_return, return_from.
      destruct (depth rho); auto.
    + assert (E : forall s, oeval ce o e rho n s = eval fields e μ rho n s).
      { intros u. apply (IHss e). left; auto. }
      assert (IH' := IH (fun x Hx => IHss x (or_intror Hx))).
      destruct ss, ret; rewrite ?E; auto; apply bind_ext; intros; apply IH'.
Qed.
Lemma bc_block ss ret rho n s : oeval_block ce o ss ret rho n s = eval_block fields ss ret μ rho n s.
Proof. exact (proj2 (bc_eval (SBlk 0 [] [] ss ret false)) rho n s). Qed.
Lemma bc_method ss ret rho n : forall s, oeval_method ce o ss ret rho n s = eval_method fields ss ret μ rho n s.
Proof.
  induction ss as [|e ss IH]; intros s; cbn [oeval_method eval_method].
  - destruct ret as [e|]; auto. rewrite (proj1 (bc_eval e)). reflexivity.
  - rewrite (proj1 (bc_eval e)). apply bind_ext. intros. apply IH.
Qed.
End Bc.

(** * Nodes *)
(** Does something in the node refer to an activation more than [i] levels out? *)
Definition reach_triv (i : nat) (t : atriv) : bool :=
  match t with
  | ALit _ | AArr _ | AGlob _ => false
  | AUnk _ _ => true
  | AFld _ k => i <? k
  | AFldW _ _ => false
  end.
Fixpoint reach (i : nat) (nd : node) {struct nd} : bool :=
  match nd with
  | NLit _ | NArr _ | NGlob _ => false
  | NBlk _ _ b _ _ => reach (S i) b
  | NBlkT _ _ t _ => reach_triv (S i) t
  | NRead _ k | NSelf k | NFldR k _ | NFldI k _ => i <? k
  | NUnk _ _ => true
  | NWrite _ k e | NFldW k _ e | NRetNL k e => (i <? k) || reach i e
  | NSend _ r l | NSuper _ r l => reach i r || existsb (reach i) l
  | NInc e | NRetLoc e => reach i e
  | NSeq l => existsb (reach i) l
  | NIf _ c t | NIfNil c t | NIfNotNil c t | NWhile _ c t | NAnd c t | NOr c t => reach i c || reach i t
  | NIfElse _ c t f | NIfNN c t f => reach i c || reach i t || reach i f
  end.

Definition ret_node (k : nat) (e : node) : node :=
  match k with O => NRetLoc e | _ => NRetNL k e end.
Definition blk_node (c : bool) (label : nat) (body : node) (na : nat) : node :=
  match body with
  | NLit v => NBlkT c label (ALit v) na
  | NArr ls => NBlkT c label (AArr ls) na
  | NGlob n => NBlkT c label (AGlob n) na
  | NUnk n k => NBlkT c label (AUnk n k) na
  | NFldR k i => NBlkT c label (AFld i k) na
  | _ => NBlk c label body [] na
  end.
Section Node.
Variable ce : cenv.
Definition rd_node (rho : env) (n : text) : node :=
  match resolve n rho with
  | Some (k, v) => if text_eqb n t_self then NSelf k else NRead v k
  | None =>
      match position n (ce_fields ce) with
      | Some i => NFldR (depth rho) i
      | None => if text_eqb n t_nil then NLit VNil
                else if text_eqb n t_true then NLit VTrue
                else if text_eqb n t_false then NLit VFalse
                else if ce_known ce n then NGlob n
                else NUnk n (depth rho + in_place rho)
      end
  end.
Definition wr_node (rho : env) (n : text) (e : node) : node :=
  match resolve n rho with
  | Some (k, v) => NWrite v k e
  | None =>
      match position n (ce_fields ce) with
      | Some i => if accesses_field i e then NFldI (depth rho) i else NFldW (depth rho) i e
      | None => NSeq [e; NSeq []]
      end
  end.
Definition wr_nodes (rho : env) (vs : list text) (e : node) : node := fold_right (wr_node rho) e vs.
Fixpoint node_of (e : src) (rho : env) {struct e} : node :=
  let body (ss : list src) (ret : option src) (rho : env) : node :=
    seq_node (map (fun e => node_of e rho) ss ++
      match ret with Some e => [ret_node (depth rho) (node_of e rho)] | None => [] end) in
  let inline (b : src) : node :=
    match b with SBlk _ _ ls ss ret _ => body ss ret (add_layer ls rho) | _ => NSeq [] end in
  match e with
  | SVar n => rd_node rho n
  | SLit (SL l) => match lit_value l with Some v => NLit v | None => NSeq [] end
  | SLit (SA ls) => NArr ls
  | SInc e => NInc (node_of e rho)
  | SDec e => NSend t_minus (node_of e rho) [NLit (VInt 1)]
  | SAsgn vs e => wr_nodes rho vs (node_of e rho)
  | SBlk label ps ls ss ret _ =>
      let b := body ss ret (add_level ps ls rho) in blk_node (reach 0 b) label b (S (length ps))
  | SSend sup r sel args =>
      match special_form sup r sel args, args with
      | Some (KThen k), [a] => then_node k (node_of r rho) (inline a)
      | Some (KElse k), [a; b] => else_node k (node_of r rho) (inline a) (inline b)
      | Some (KWhile b), [a] => NWhile b (inline r) (inline a)
      | Some (KAndOr b), [a] => if b then NOr (node_of r rho) (inline a) else NAnd (node_of r rho) (inline a)
      | _, _ =>
          if adds_one sup sel args then NInc (node_of r rho)
          else if sup then NSuper sel (node_of r rho) (map (fun a => node_of a rho) args)
          else NSend sel (node_of r rho) (map (fun a => node_of a rho) args)
      end
  end.
Definition node_list (ss : list src) (ret : option src) (rho : env) : list node :=
  map (fun e => node_of e rho) ss ++
  match ret with Some e => [ret_node (depth rho) (node_of e rho)] | None => [] end.
Definition node_body (ss : list src) (ret : option src) (rho : env) : node := seq_node (node_list ss ret rho).
Definition node_inl (b : src) (rho : env) : node :=
  match b with SBlk _ _ ls ss ret _ => node_body ss ret (add_layer ls rho) | _ => NSeq [] end.
Definition node_special (k : special) (r : src) (args : list src) (rho : env) : node :=
  match k, args with
  | KThen k, [a] => then_node k (node_of r rho) (node_inl a rho)
  | KElse k, [a; b] => else_node k (node_of r rho) (node_inl a rho) (node_inl b rho)
  | KWhile b, [a] => NWhile b (node_inl r rho) (node_inl a rho)
  | KAndOr b, [a] => if b then NOr (node_of r rho) (node_inl a rho) else NAnd (node_of r rho) (node_inl a rho)
  | _, _ => NSeq []
  end.
Definition node_message (sup : bool) (r : src) (sel : text) (args : list src) (rho : env) : node :=
  if adds_one sup sel args then NInc (node_of r rho)
  else if sup then NSuper sel (node_of r rho) (map (fun a => node_of a rho) args)
  else NSend sel (node_of r rho) (map (fun a => node_of a rho) args).
Lemma node_send sup r sel args rho : node_of (SSend sup r sel args) rho =
  match special_form sup r sel args with
  | Some k => node_special k r args rho
  | None => node_message sup r sel args rho
  end.
Proof.
  destruct (special_form sup r sel args) as [k|] eqn:E.
  - apply special_shape in E as E'. destruct E' as (-> & Es & Ha). cbn [node_of]. rewrite E.
    destruct k; [destruct Ha as (a & -> & Ha)|destruct Ha as (a & b & -> & Ha)|destruct Ha as (a & -> & Ha)|destruct Ha as (a & -> & Ha)];
      reflexivity.
  - cbn [node_of]. rewrite E. reflexivity.
Qed.

(** The receiver of the home method is self. *)
Definition homed (rho : env) : Prop := resolve t_self rho = Some (depth rho, VArg 0).
Lemma in_layer_self ls : no_self (map fst ls) = true -> in_layer t_self ls = None.
Proof.
  induction ls as [|[n d] ls IH]; cbn [in_layer map no_self forallb fst]; auto. intros H. apply andb_true_iff in H. destruct H as [H1 H2].
  destruct (text_eqb t_self n) eqn:E; [|auto]. apply text_eqb_eq in E. subst n. rewrite text_eqb_refl in H1. discriminate.
Qed.
Lemma position_self ps : no_self ps = true -> position t_self ps = None.
Proof.
  induction ps as [|n ps IH]; cbn [position no_self forallb]; auto. intros H. apply andb_true_iff in H. destruct H as [H1 H2].
  destruct (text_eqb t_self n) eqn:E; [|rewrite IH; auto]. apply text_eqb_eq in E. subst n. rewrite text_eqb_refl in H1. discriminate.
Qed.
Lemma homed_layer ls rho : no_self (map fst ls) = true -> homed rho -> homed (add_layer ls rho).
Proof.
  intros Hl H. unfold homed in *. destruct rho as [|l rho]; auto. unfold add_layer, depth in *.
  cbn [resolve length] in *. unfold in_level in *. cbn [lv_layers lv_args in_layers]. rewrite (in_layer_self ls Hl). exact H.
Qed.
Lemma homed_ne rho : homed rho -> rho <> [].
Proof. intros H ->. discriminate. Qed.
Lemma homed_level ps ls rho : no_self ps = true -> no_self (map fst ls) = true -> homed rho -> homed (add_level ps ls rho).
Proof.
  intros Hp Hl H. pose proof (homed_ne _ H) as Hn. unfold homed, add_level, depth in *. cbn [resolve length].
  assert (E : in_level t_self (Level [ls] (t_block_self :: ps)) = None).
  { unfold in_level. cbn [lv_layers lv_args in_layers]. rewrite (in_layer_self ls Hl). cbn [position].
    replace (text_eqb t_self t_block_self) with false by reflexivity. rewrite (position_self ps Hp). reflexivity. }
  rewrite E, H. cbn. destruct rho; [congruence|]. cbn [length]. rewrite Nat.sub_0_r. do 2 f_equal. lia.
Qed.
End Node.

(** * Execution *)
Section Exec.
Context {S X : Type}.
Variable ce : cenv.
Variable μ : amachine S X.
Hypothesis Hlaw : lawful (a_mach μ).
Notation o := (ast_ops μ).

(** A [^] that ends the activation. *)
Definition flat {A} (r : out S (astop X) A) : out S X A :=
  match r with
  | Done a s => Done a s
  | Retn v s => Retn v s
  | Abrupt (AX x) s => Abrupt x s
  | Abrupt (ALoc v) s => Retn v s
  | Hang => Hang
  | Stuck => Stuck
  end.
Lemma flat_bind {A B} (r : out S (astop X) A) (f : A -> S -> out S (astop X) B) :
  flat (bind r f) = bind (flat r) (fun a s => flat (f a s)).
Proof. destruct r as [| |[]| |]; reflexivity. Qed.
Lemma flat_lift {A} (r : out S X A) : flat (lift r) = r.
Proof. destruct r; reflexivity. Qed.
Lemma flat_bind' {A B} (r : out S (astop X) A) (q : out S X A) (f : A -> S -> out S (astop X) B) g :
  flat r = q -> (forall a s, flat (f a s) = g a s) -> flat (bind r f) = bind q g.
Proof. intros <- H. rewrite flat_bind. apply bind_ext. auto. Qed.

Definition execs (n : nat) : list node -> list value -> S -> out S (astop X) (list value) :=
  fix go l vs s := match l with
    | [] => Done vs s
    | x :: l => bind (exec μ x n s) (fun v s => go l (vs ++ [v]) s)
    end.
Definition execq (n : nat) : list node -> S -> out S (astop X) value :=
  fix go l s := match l with
    | [] => Stuck
    | x :: l => match l with
                | [] => exec μ x n s
                | _ => bind (exec μ x n s) (fun _ s => go l s)
                end
    end.

Lemma exec_read rho x n s : homed rho -> flat (exec μ (rd_node ce rho x) n s) = o_read ce o rho x s.
Proof.
  intros Hh. unfold rd_node, o_read. destruct (resolve x rho) as [[k v]|] eqn:Er.
  - destruct (text_eqb x t_self) eqn:E; cbn [exec]; rewrite flat_lift; auto.
    apply text_eqb_eq in E. subst x. rewrite Hh in Er. injection Er as <- <-. reflexivity.
  - destruct (position x (ce_fields ce)); [cbn [exec]; rewrite flat_lift; reflexivity|].
    destruct (text_eqb x t_nil); [reflexivity|]. destruct (text_eqb x t_true); [reflexivity|].
    destruct (text_eqb x t_false); [reflexivity|].
    destruct (ce_known ce x); cbn [exec]; rewrite flat_lift; reflexivity.
Qed.
Lemma exec_incf k i e n s : accesses_field i e = true ->
  (forall j, e = NInc (NFldR j i) -> j = k) ->
  flat (exec μ (NFldI k i) n s) =
  bind (flat (exec μ e n s)) (fun v s => bind (m_setf (a_mach μ) k i v s) (fun _ s => Done v s)).
Proof.
  intros H Hj. destruct e; try discriminate. destruct e; try discriminate. cbn [accesses_field] in H. apply Nat.eqb_eq in H. subst i0.
  specialize (Hj _ eq_refl). subst k0. cbn [exec]. rewrite flat_lift, Hlaw, flat_bind, flat_lift, bind_assoc.
  apply bind_ext. intros. rewrite flat_lift. reflexivity.
Qed.
(** Fields are read at the level of the home activation. *)
Definition level_is (rho : env) (nd : node) : Prop := forall j i, nd = NInc (NFldR j i) -> j = depth rho.
Lemma exec_write rho x e n s : level_is rho e ->
  flat (exec μ (wr_node ce rho x e) n s) =
  bind (flat (exec μ e n s)) (fun v s => bind (o_write ce o rho x v s) (fun _ s => Done v s)).
Proof.
  intros Hl. unfold wr_node, o_write. destruct (resolve x rho) as [[k v]|] eqn:Er.
  - cbn [exec]. rewrite flat_bind. apply bind_ext. intros. rewrite flat_bind, flat_lift. reflexivity.
  - destruct (position x (ce_fields ce)) as [i|].
    + destruct (accesses_field i e) eqn:Ea.
      * rewrite (exec_incf _ _ e); auto. intros j E. exact (Hl j i E).
      * cbn [exec]. rewrite flat_bind. apply bind_ext. intros. rewrite flat_bind, flat_lift. reflexivity.
    + cbn [exec]. rewrite flat_bind. apply bind_ext. reflexivity.
Qed.
Lemma wr_not_inc rho x e j i : wr_node ce rho x e <> NInc (NFldR j i).
Proof.
  unfold wr_node. destruct (resolve x rho) as [[? ?]|]; [discriminate|].
  destruct (position x _); [destruct (accesses_field _ e)|]; discriminate.
Qed.
Lemma o_writes_app a b : forall rho v s, o_writes ce o rho (a ++ b) v s =
  bind (o_writes ce o rho a v s) (fun _ s => o_writes ce o rho b v s).
Proof.
  induction a as [|x a IH]; intros rho v s; simpl; auto. rewrite bind_assoc. apply bind_ext. intros. apply IH.
Qed.
Lemma exec_writes rho vs e n s : level_is rho e ->
  flat (exec μ (wr_nodes ce rho vs e) n s) =
  bind (flat (exec μ e n s)) (fun v s => bind (o_writes ce o rho (rev vs) v s) (fun _ s => Done v s)).
Proof.
  intros Hl. revert s. induction vs as [|x vs IH]; intros s.
  - cbn [wr_nodes fold_right rev o_writes bind]. rewrite bind_done. reflexivity.
  - cbn [wr_nodes fold_right]. fold (wr_nodes ce rho vs e). rewrite exec_write.
    + rewrite IH, bind_assoc. apply bind_ext. intros v s1. rewrite bind_assoc. cbn [rev]. rewrite o_writes_app, bind_assoc.
      apply bind_ext. intros [] s2. cbn [o_writes bind]. rewrite bind_assoc. apply bind_ext. reflexivity.
    + destruct vs as [|y vs]; [exact Hl|]. intros j i E. exfalso. cbn [wr_nodes fold_right] in E. exact (wr_not_inc _ _ _ _ _ E).
Qed.
Lemma exec_args n rho l : Forall (fun e => forall s, flat (exec μ (node_of ce e rho) n s) = oeval ce o e rho n s) l ->
  forall vs s, flat (execs n (map (fun a => node_of ce a rho) l) vs s) = o_args ce o l rho n vs s.
Proof.
  induction 1 as [|e l He _ IH]; intros vs s; cbn [map execs o_args]; auto.
  rewrite flat_bind, He. apply bind_ext. intros. apply IH.
Qed.
Lemma exec_then k r t n s : flat (exec μ (then_node k r t) n s) =
  bind (flat (exec μ r n s)) (fun v s =>
  bind (o_test o false k v s) (fun c s =>
  if c then Done (left_value k v) s else flat (exec μ t n s))).
Proof.
  destruct k; cbn [then_node exec]; rewrite flat_bind; apply bind_ext; intros v s1; destruct v; reflexivity.
Qed.
Lemma exec_else k r a b n s : flat (exec μ (else_node k r a b) n s) =
  bind (flat (exec μ r n s)) (fun v s =>
  bind (o_test o false k v s) (fun c s =>
  if c then flat (exec μ b n s) else flat (exec μ a n s))).
Proof.
  destruct k; cbn [else_node exec]; rewrite flat_bind; apply bind_ext; intros v s1; destruct v; reflexivity.
Qed.
Lemma exec_andor (b : bool) r t n s : flat (exec μ (if b then NOr r t else NAnd r t) n s) =
  bind (flat (exec μ r n s)) (fun v s =>
  bind (o_test o true (if b then OnTrue else OnFalse) v s) (fun c s =>
  if c then Done (som_bool b) s else flat (exec μ t n s))).
Proof.
  destruct b; cbn [exec]; rewrite flat_bind; apply bind_ext; intros v s1; destruct v; reflexivity.
Qed.
Lemma exec_while (b : bool) c t c' t' n : (forall n s, flat (c n s) = c' n s) -> (forall n s, flat (t n s) = t' n s) ->
  forall s, flat (while_node μ b n c t s) = o_while o n c' t' (if b then OnFalse else OnTrue) s.
Proof.
  intros Hc Ht. induction n as [|n IH]; intros s; cbn [while_node o_while]; auto.
  rewrite flat_bind, Hc. apply bind_ext. intros v s1.
  assert (N : forall s, flat (bind (t (Datatypes.S n) s) (fun _ s => while_node μ b n c t s)) =
    bind (t' (Datatypes.S n) s) (fun _ s => o_while o n c' t' (if b then OnFalse else OnTrue) s)).
  { intros u. rewrite flat_bind, Ht. apply bind_ext. auto. }
  destruct b, v; try reflexivity; apply N.
Qed.
Lemma node_fld_level x rho j i : node_of ce x rho = NFldR j i -> j = depth rho.
Proof.
  induction x as [x|l|sup e0 IH sel args|e0 IH|e0 IH|vs e0 IH|label ps ls ss ret per].
  - cbn [node_of]. unfold rd_node. destruct (resolve x rho) as [[? ?]|]; [destruct (text_eqb x t_self); discriminate|].
    destruct (position x _); [congruence|].
    destruct (text_eqb x t_nil); [discriminate|]. destruct (text_eqb x t_true); [discriminate|].
    destruct (text_eqb x t_false); [discriminate|]. destruct (ce_known ce x); discriminate.
  - destruct l; cbn [node_of]; [destruct (lit_value l)|]; discriminate.
  - rewrite node_send. destruct (special_form _ _ _ _) as [[k|k|b|b]|].
    + unfold node_special. destruct args as [|a [|]]; try discriminate. destruct k; discriminate.
    + unfold node_special. destruct args as [|a [|a2 [|]]]; try discriminate. destruct k; discriminate.
    + unfold node_special. destruct args as [|a [|]]; discriminate.
    + unfold node_special. destruct args as [|a [|]]; try discriminate. destruct b; discriminate.
    + unfold node_message. destruct (adds_one _ _ _); [discriminate|]. destruct sup; discriminate.
  - discriminate.
  - discriminate.
  - cbn [node_of]. destruct vs as [|v vs]; [exact IH|]. cbn [wr_nodes fold_right]. unfold wr_node at 1.
    destruct (resolve v rho) as [[? ?]|]; [discriminate|].
    destruct (position v _); [match goal with |- context [accesses_field ?a ?b] => destruct (accesses_field a b) end|]; discriminate.
  - cbn [node_of]. unfold blk_node. match goal with |- match ?x with _ => _ end = _ -> _ => destruct x end; discriminate.
Qed.
Lemma level_node e rho : level_is rho (node_of ce e rho).
Proof.
  intros j i. induction e as [x|l|sup e0 IH sel args|e0 IH|e0 IH|vs e0 IH|label ps ls ss ret per].
  - cbn [node_of]. unfold rd_node. destruct (resolve x rho) as [[? ?]|]; [destruct (text_eqb x t_self); discriminate|].
    destruct (position x _); [discriminate|].
    destruct (text_eqb x t_nil); [discriminate|]. destruct (text_eqb x t_true); [discriminate|].
    destruct (text_eqb x t_false); [discriminate|]. destruct (ce_known ce x); discriminate.
  - destruct l; cbn [node_of]; [destruct (lit_value l)|]; discriminate.
  - rewrite node_send. destruct (special_form _ _ _ _) as [[k|k|b|b]|].
    + unfold node_special. destruct args as [|a [|]]; try discriminate. destruct k; discriminate.
    + unfold node_special. destruct args as [|a [|a2 [|]]]; try discriminate. destruct k; discriminate.
    + unfold node_special. destruct args as [|a [|]]; discriminate.
    + unfold node_special. destruct args as [|a [|]]; try discriminate. destruct b; discriminate.
    + unfold node_message. destruct (adds_one _ _ _); [|destruct sup; discriminate].
      intros E. injection E as E. exact (node_fld_level _ _ _ _ E).
  - cbn [node_of]. intros E. injection E as E. exact (node_fld_level _ _ _ _ E).
  - discriminate.
  - cbn [node_of]. destruct vs as [|v vs]; [exact IH|]. cbn [wr_nodes fold_right]. intros E. exfalso. exact (wr_not_inc _ _ _ _ _ E).
  - cbn [node_of]. unfold blk_node. match goal with |- match ?x with _ => _ end = _ -> _ => destruct x end; discriminate.
Qed.
Lemma exec_ret rho e n s : flat (exec μ (ret_node (depth rho) e) n s) =
  bind (flat (exec μ e n s)) (fun v s => o_return o rho v s).
Proof.
  unfold ret_node, o_return. destruct (depth rho); cbn [exec]; rewrite flat_bind; apply bind_ext; intros; [reflexivity|apply flat_lift].
Qed.
Lemma exec_seq l n s : l <> [] -> exec μ (seq_node l) n s = execq n l s.
Proof. destruct l as [|x [|y l]]; [congruence| |]; reflexivity. Qed.
Lemma exec_body rho n ss ret : Forall (fun e => forall s, flat (exec μ (node_of ce e rho) n s) = oeval ce o e rho n s) ss ->
  (forall e, ret = Some e -> forall s, flat (exec μ (node_of ce e rho) n s) = oeval ce o e rho n s) ->
  forall s, flat (exec μ (node_body ce ss ret rho) n s) = oeval_block ce o ss ret rho n s.
Proof.
  intros Hs Hr s. unfold node_body, node_list.
  assert (Q : forall s, map (fun e => node_of ce e rho) ss ++ (match ret with Some e => [ret_node (depth rho) (node_of ce e rho)] | None => [] end) <> [] ->
    flat (execq n (map (fun e => node_of ce e rho) ss ++ match ret with Some e => [ret_node (depth rho) (node_of ce e rho)] | None => [] end) s) =
    oeval_block ce o ss ret rho n s).
  { clear s. induction Hs as [|e ss He _ IH]; intros s Hn.
    - destruct ret as [e|]; [|exfalso; apply Hn; reflexivity]. cbn [map app execq oeval_block]. rewrite exec_ret, Hr by auto. reflexivity.
    - cbn [map app oeval_block]. destruct ss as [|e2 ss].
      + destruct ret as [e2|].
        * cbn [map app execq]. rewrite flat_bind, He. apply bind_ext. intros. exact (IH s0 ltac:(discriminate)).
        * cbn [map app execq]. apply He.
      + change (flat (bind (exec μ (node_of ce e rho) n s) (fun _ s => execq n (map (fun e => node_of ce e rho) (e2 :: ss) ++
          match ret with Some e => [ret_node (depth rho) (node_of ce e rho)] | None => [] end) s)) =
          bind (oeval ce o e rho n s) (fun _ s => oeval_block ce o (e2 :: ss) ret rho n s)).
        rewrite flat_bind, He. apply bind_ext. intros. exact (IH s0 ltac:(discriminate)). }
  destruct ss as [|e ss].
  - destruct ret as [e|]; [|reflexivity]. rewrite exec_seq by discriminate. apply Q. discriminate.
  - rewrite exec_seq by discriminate. apply Q. discriminate.
Qed.
Lemma exec_node : forall e, self_ok e = true ->
  (forall rho n s, homed rho -> flat (exec μ (node_of ce e rho) n s) = oeval ce o e rho n s) /\
  match e with
  | SBlk _ _ _ ss ret _ => forall rho n s, homed rho ->
      flat (exec μ (node_body ce ss ret rho) n s) = oeval_block ce o ss ret rho n s
  | _ => True
  end.
Proof.
  induction e as [x|l|sup e sel args IHe IHargs|e IHe|e IHe|vs e IHe|label ps ls ss ret per IHss IHret] using src_ind';
    intros Hok; cbn [self_ok] in Hok.
  - split; auto. intros. apply exec_read; auto.
  - split; auto. intros. destruct l as [l|ls]; cbn [node_of oeval o_lit]; [destruct (lit_value l); reflexivity|apply flat_lift].
  - split; auto. apply andb_true_iff in Hok. destruct Hok as [Hr Ha]. destruct (IHe Hr) as [Ie Be].
    rewrite forallb_forall in Ha. rewrite Forall_forall in IHargs. intros rho n s Hh.
    assert (IB : forall b, (b = e \/ In b args) -> is_block b = true -> forall n s, flat (exec μ (node_inl ce b rho) n s) = o_inline ce o b rho n s).
    { intros b Hb Hbl k u. destruct b; try discriminate. cbn [node_inl o_inline].
      assert (Hs : self_ok (SBlk label ps ls ss ret period) = true) by (destruct Hb as [Hb|Hb]; [rewrite Hb; auto|auto]).
      cbn [self_ok] in Hs. repeat rewrite andb_true_iff in Hs. destruct Hs as [[[_ Hs] _] _].
      destruct Hb as [Hb | Hb]; [subst e; apply Be|apply (IHargs _ Hb (Ha _ Hb))]; apply homed_layer; auto. }
    rewrite node_send, oeval_send. destruct (special_form sup e sel args) as [k|] eqn:Es.
    + apply special_shape in Es. destruct Es as (-> & Es & Hs). destruct k; cbn [node_special o_special].
      * destruct Hs as (a & -> & Hb). rewrite exec_then, Ie by auto. apply bind_ext. intros v s1. apply bind_ext. intros c s2.
        destruct c; auto. apply IB; simpl; auto.
      * destruct Hs as (a & b & -> & Hb & Hb2). rewrite exec_else, Ie by auto. apply bind_ext. intros v s1. apply bind_ext. intros c s2.
        destruct c; apply IB; simpl; auto.
      * destruct Hs as (a & -> & Hb & Hb2). cbn [exec]. apply exec_while; intros; apply IB; simpl; auto.
      * destruct Hs as (a & -> & Hb). rewrite exec_andor, Ie by auto. apply bind_ext. intros v s1. apply bind_ext. intros c s2.
        destruct c; auto. apply IB; simpl; auto.
    + unfold node_message, o_message. destruct (adds_one sup sel args).
      * cbn [exec]. rewrite flat_bind, Ie by auto. apply bind_ext. intros. apply flat_lift.
      * assert (A : forall v s, flat (execs n (map (fun a => node_of ce a rho) args) v s) = o_args ce o args rho n v s).
        { intros v u. apply exec_args. apply Forall_forall. intros a Hi t. apply IHargs; auto. }
        destruct sup.
        -- cbn [exec o_ready ast_ops]. destruct (a_super μ sel s); [|reflexivity]. cbn [bind]. rewrite flat_bind, Ie by auto.
           apply bind_ext. intros v s1. change (flat (bind (execs n (map (fun a => node_of ce a rho) args) [v] s1) (fun vs s => lift (m_super (a_mach μ) sel vs s))) =
             bind (o_args ce o args rho n [v] s1) (fun vs s => o_super o sel vs s)).
           rewrite flat_bind, A. apply bind_ext. intros. apply flat_lift.
        -- cbn [exec bind]. rewrite flat_bind, Ie by auto.
           apply bind_ext. intros v s1. change (flat (bind (execs n (map (fun a => node_of ce a rho) args) [v] s1) (fun vs s => lift (m_send (a_mach μ) sel vs s))) =
             bind (o_args ce o args rho n [v] s1) (fun vs s => o_send o sel vs s)).
           rewrite flat_bind, A. apply bind_ext. intros. apply flat_lift.
  - split; auto. intros. cbn [node_of exec oeval]. rewrite flat_bind, (proj1 (IHe Hok)) by auto. apply bind_ext. intros. apply flat_lift.
  - split; auto. intros. cbn [node_of exec oeval]. rewrite flat_bind, (proj1 (IHe Hok)) by auto. apply bind_ext. intros. cbn [bind]. apply flat_lift.
  - split; auto. intros. cbn [node_of oeval]. rewrite exec_writes by apply level_node. rewrite (proj1 (IHe Hok)) by auto. reflexivity.
  - repeat rewrite andb_true_iff in Hok. destruct Hok as [[[Hp Hl] Hs] Hr]. split.
    + intros rho n s Hh. cbn [node_of oeval]. match goal with |- context [blk_node ?c _ ?b _] => generalize c b end. intros c b.
      destruct b; cbn [blk_node exec]; apply flat_lift.
    + intros rho n s Hh. apply exec_body.
      * rewrite forallb_forall in Hs. rewrite Forall_forall in *. intros e Hi u. apply IHss; auto.
      * intros e -> u. apply IHret; auto.
Qed.
End Exec.
