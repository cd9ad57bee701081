(** Facts about the evaluator: equations, and running a block in the activation around it. *)
From Coq Require Import ZArith Bool String Ascii List Lia.
From Verif Require Import Base LexModel ParseModel BcModel BcInterp BcSpec BcCode.
Import ListNotations.
Open Scope nat_scope.
Open Scope list_scope.

Lemma text_eqb_eq a b : text_eqb a b = true <-> a = b.
Proof. unfold text_eqb. destruct (list_eq_dec ascii_dec a b); split; congruence. Qed.
Lemma text_eqb_refl a : text_eqb a a = true.
Proof. apply text_eqb_eq. auto. Qed.

Section Eq.
Context {S X : Type}.
Variable fields : list text.
Notation out := (out S X).
Notation eval := (eval fields).
Notation eval_block := (eval_block fields).

Definition eval_inline (b : src) (μ : machine S X) (rho : env) (n : nat) (s : S) : out value :=
  match b with
  | SBlk _ _ ls ss ret _ => eval_block ss ret μ (add_layer ls rho) n s
  | _ => Stuck
  end.
Fixpoint eval_args (l : list src) (μ : machine S X) (rho : env) (n : nat) (vs : list value) (s : S)
  : out (list value) :=
  match l with
  | [] => Done vs s
  | a :: l => bind (eval a μ rho n s) (fun v s => eval_args l μ rho n (vs ++ [v]) s)
  end.
Definition eval_special (k : special) (r : src) (args : list src) (μ : machine S X) (rho : env)
  (n : nat) (s : S) : out value :=
  match k, args with
  | KThen k, [a] =>
      bind (eval r μ rho n s) (fun v s =>
      if takes k v then Done (left_value k v) s else eval_inline a μ rho n s)
  | KAndOr b, [a] =>
      bind (eval r μ rho n s) (fun v s =>
      if takes (if b then OnTrue else OnFalse) v then Done (som_bool b) s
      else eval_inline a μ rho n s)
  | KElse k, [a; b] =>
      bind (eval r μ rho n s) (fun v s =>
      if takes k v then eval_inline b μ rho n s else eval_inline a μ rho n s)
  | KWhile b, [a] =>
      repeat_while n (eval_inline r μ rho) (eval_inline a μ rho) (if b then OnFalse else OnTrue) s
  | _, _ => Stuck
  end.
Definition eval_message (sup : bool) (r : src) (sel : text) (args : list src) (μ : machine S X)
  (rho : env) (n : nat) (s : S) : out value :=
  bind (eval r μ rho n s) (fun v s =>
  bind (eval_args args μ rho n [v] s) (fun vs s =>
  if sup then m_super μ sel vs s else m_send μ sel vs s)).

Lemma repeat_while_ext n (t t' b b' : nat -> S -> out value) k s :
  (forall n s, t n s = t' n s) -> (forall n s, b n s = b' n s) ->
  repeat_while n t b k s = repeat_while n t' b' k s.
Proof.
  intros Ht Hb. revert s. induction n as [|n IH]; intros s; simpl; auto.
  rewrite Ht. apply bind_ext. intros v s1. destruct (takes k v); auto.
  rewrite Hb. apply bind_ext. auto.
Qed.
Lemma special_shape sup r sel args k : special_form sup r sel args = Some k ->
  sup = false /\ special_of sel = Some k /\
  match k with
  | KThen _ | KAndOr _ => exists a, args = [a] /\ is_block a = true
  | KElse _ => exists a b, args = [a; b] /\ is_block a = true /\ is_block b = true
  | KWhile _ => exists a, args = [a] /\ is_block r = true /\ is_block a = true
  end.
Proof.
  unfold special_form. destruct sup; [discriminate|].
  destruct (special_of sel) as [[| | |]|]; try discriminate;
    destruct args as [|a1 [|a2 [|]]]; try discriminate;
    repeat match goal with |- context [is_block ?x] => destruct (is_block x) eqn:? end;
    cbn; intros H; try discriminate; inversion H; subst; repeat split; eauto 7.
Qed.

Definition inline0 (μ : machine S X) (rho : env) (b : src) (n : nat) (s : S) : out value :=
    match b with
    | SBlk _ _ ls ss ret _ =>
        let rho := add_layer ls rho in
        (fix go (ss : list src) (s : S) : out value :=
           match ss with
           | [] => match ret with
                   | Some e => bind (eval e μ rho n s) (fun v s => return_from μ rho v s)
                   | None => Done VNil s
                   end
           | e :: ss' => match ss', ret with
                         | [], None => eval e μ rho n s
                         | _, _ => bind (eval e μ rho n s) (fun _ s => go ss' s)
                         end
           end) ss s
    | _ => Stuck
    end.
Lemma inline0_eq μ rho b n s : inline0 μ rho b n s = eval_inline b μ rho n s.
Proof.
  destruct b; auto. simpl. revert s. induction ss as [|e ss IH]; intros s; auto.
  cbn [BcSpec.eval_block]. destruct ss, ret; auto;
    apply bind_ext; intros; apply IH.
Qed.
Lemma args0_eq (μ : machine S X) rho n (sup : bool) sel l : forall vs s,
  (fix go (l : list src) (vs : list value) (s : S) : out value :=
             match l with
             | [] => if sup then m_super μ sel vs s else m_send μ sel vs s
             | a :: l => bind (eval a μ rho n s) (fun v s => go l (vs ++ [v]) s)
             end) l vs s =
  bind (eval_args l μ rho n vs s) (fun vs s =>
  if sup then m_super μ sel vs s else m_send μ sel vs s).
Proof.
  induction l as [|a l IH]; intros vs s; simpl; auto.
  rewrite bind_assoc. apply bind_ext. intros. apply IH.
Qed.
Lemma eval_send sup r sel args μ rho n s :
  eval (SSend sup r sel args) μ rho n s =
  match special_form sup r sel args with
  | Some k => eval_special k r args μ rho n s
  | None => eval_message sup r sel args μ rho n s
  end.
Proof.
  destruct (special_form sup r sel args) as [k|] eqn:E.
  - apply special_shape in E as E'. destruct E' as (-> & Es & Ha).
    cbn [BcSpec.eval]. rewrite E.
    destruct k.
    + destruct Ha as (a & -> & Ha). apply bind_ext. intros v s1. destruct (takes k v); auto.
      apply (inline0_eq μ rho a n s1).
    + destruct Ha as (a & b & -> & Ha & Hb). apply bind_ext. intros v s1. destruct (takes k v).
      apply (inline0_eq μ rho b n s1). apply (inline0_eq μ rho a n s1).
    + destruct Ha as (a & -> & Hr & Ha). apply repeat_while_ext; intros.
      apply (inline0_eq μ rho r n0 s0). apply (inline0_eq μ rho a n0 s0).
    + destruct Ha as (a & -> & Ha). apply bind_ext. intros v s1. destruct (takes _ v); auto.
      apply (inline0_eq μ rho a n s1).
  - cbn [BcSpec.eval]. rewrite E. unfold eval_message. apply bind_ext. intros. apply args0_eq.
Qed.
End Eq.

(** * The block's level merged with the level around it *)
Definition mergeable (r : nat) (rho : env) : Prop :=
  Datatypes.S r < length rho /\ option_map lv_args (nth_error rho r) = Some [t_block_self].
Lemma mergeable_S r a rho : mergeable (S r) (a :: rho) <-> mergeable r rho.
Proof. unfold mergeable; simpl. split; intros [H1 H2]; split; auto; lia. Qed.

Lemma in_layers_app n a b : in_layers n (a ++ b) =
  match in_layers n a with Some d => Some d | None => in_layers n b end.
Proof. induction a as [|l a IH]; simpl; auto. destruct (in_layer n l); auto. Qed.
Lemma name_ok_neq n : name_ok n = true -> text_eqb n t_block_self = false.
Proof. unfold name_ok. destruct (text_eqb _ _); auto. Qed.
Lemma resolve_merge n r rho : name_ok n = true -> mergeable r rho ->
  resolve n (merge r rho) = option_map (fun p => (low r (fst p), snd p)) (resolve n rho).
Proof.
  intros Hn. revert rho. induction r as [|r IH]; intros rho H.
  - destruct H as [H1 H2]. destruct rho as [|a [|b rho]]; simpl in *; try lia.
    inversion H2 as [Ha]. clear H2. unfold in_level. simpl. rewrite in_layers_app, Ha. simpl.
    rewrite (name_ok_neq _ Hn).
    destruct (in_layers n (lv_layers a)); simpl; auto.
    destruct (in_layers n (lv_layers b)); simpl; auto.
    destruct (position n (lv_args b)); simpl; auto.
    destruct (resolve n rho) as [[k v]|]; simpl; auto.
  - destruct rho as [|a rho]; [destruct H; simpl in *; lia|]. apply mergeable_S in H.
    simpl. rewrite IH by auto. destruct (in_level n a); auto.
    destruct (resolve n rho) as [[k v]|]; simpl; auto. f_equal. f_equal. unfold low.
    destruct (k <=? r) eqn:E1; simpl; rewrite E1; auto. apply Nat.leb_gt in E1. lia.
Qed.
Lemma merge_length r rho : S r < length rho -> length (merge r rho) = length rho - 1.
Proof.
  revert rho. induction r as [|r IH]; intros rho H; destruct rho as [|a [|b rho]]; simpl in *; try lia.
  rewrite IH; simpl; lia.
Qed.
Lemma depth_merge r rho : mergeable r rho -> depth (merge r rho) = depth rho - 1 /\ r < depth rho.
Proof. intros [H _]. unfold depth. rewrite merge_length by auto. lia. Qed.
Lemma low_gt r k : r < k -> low r k = k - 1.
Proof. unfold low. intros H. replace (k <=? r) with false by (symmetry; apply Nat.leb_gt; lia). auto. Qed.
Lemma low_le r k : k <= r -> low r k = k.
Proof. unfold low. intros H. replace (k <=? r) with true by (symmetry; apply Nat.leb_le; lia). auto. Qed.
Lemma merge_add_layer ls r rho : mergeable r rho ->
  merge r (add_layer ls rho) = add_layer ls (merge r rho).
Proof.
  intros [H _]. destruct rho as [|a rho]; simpl in *; [lia|].
  destruct r; simpl; auto. destruct rho; auto.
Qed.
Lemma mergeable_add_layer ls r rho : mergeable r rho -> mergeable r (add_layer ls rho).
Proof. intros [H1 H2]. destruct rho as [|a rho]; simpl in *; [lia|]. split; simpl; auto. destruct r; auto. Qed.
Lemma merge_add_level ls rho : rho <> [] -> merge 0 (add_level [] ls rho) = add_layer ls rho.
Proof. destruct rho; simpl; congruence. Qed.

Section SlitInd.
Variable P : slit -> Prop.
Hypothesis H1 : forall l, P (SL l).
Hypothesis H2 : forall ls, Forall P ls -> P (SA ls).
Fixpoint slit_ind' (l : slit) : P l :=
  match l with
  | SL l => H1 l
  | SA ls => H2 ls ((fix all (ls : list slit) : Forall P ls :=
      match ls with [] => Forall_nil P | l :: ls => Forall_cons l (slit_ind' l) (all ls) end) ls)
  end.
End SlitInd.

Section Merge.
Context {S X : Type}.
Variable fields : list text.
Variable μ : machine S X.
Variable r : nat.
Notation eval := (eval fields).

Lemma read_merge rho x s : name_ok x = true -> mergeable r rho ->
  read_var fields (pull r μ) rho x s = read_var fields μ (merge r rho) x s.
Proof.
  intros Hn Hm. unfold read_var. rewrite resolve_merge by auto.
  destruct (resolve x rho) as [[k v]|]; simpl; auto.
  destruct (position x fields); auto. simpl.
  destruct (depth_merge _ _ Hm) as [-> Hd]. rewrite low_gt by auto. auto.
Qed.
Lemma write_merge rho x v s : name_ok x = true -> mergeable r rho ->
  write_var fields (pull r μ) rho x v s = write_var fields μ (merge r rho) x v s.
Proof.
  intros Hn Hm. unfold write_var. rewrite resolve_merge by auto.
  destruct (resolve x rho) as [[k w]|]; simpl; auto.
  destruct (position x fields); auto. simpl.
  destruct (depth_merge _ _ Hm) as [-> Hd]. rewrite low_gt by auto. auto.
Qed.
Lemma writes_merge rho vs v s : forallb name_ok vs = true -> mergeable r rho ->
  write_vars fields (pull r μ) rho vs v s = write_vars fields μ (merge r rho) vs v s.
Proof.
  revert s. induction vs as [|x vs IH]; intros s H Hm; simpl in *; auto.
  apply andb_true_iff in H. destruct H as [H1 H2]. rewrite write_merge by auto.
  apply bind_ext. auto.
Qed.
Lemma return_merge rho v s : mergeable r rho ->
  return_from (pull r μ) rho v s = return_from μ (merge r rho) v s.
Proof.
  intros Hm. unfold return_from. destruct (depth_merge _ _ Hm) as [-> Hd].
  destruct (depth rho) as [|k]; [lia|]. simpl. rewrite Nat.sub_0_r. destruct k; auto.
Qed.
Lemma lit_merge l : forall s, eval_lit (pull r μ) l s = eval_lit μ l s.
Proof.
  induction l as [l|ls IH] using slit_ind'; intros s; auto.
  simpl. apply bind_ext. intros a s1. apply bind_ext. clear s s1. intros arr s.
  generalize 1. revert arr s. induction IH as [|l ls Hl _ IH]; intros arr s i; auto.
  rewrite Hl. apply bind_ext. intros v s2. apply bind_ext. intros. apply IH.
Qed.

Lemma eval_merge : forall e, ok_src e = true ->
  (forall rho n s, mergeable r rho -> eval e (pull r μ) rho n s = eval e μ (merge r rho) n s) /\
  match e with
  | SBlk _ _ _ ss ret _ => forall rho n s, mergeable r rho ->
      eval_block fields ss ret (pull r μ) rho n s = eval_block fields ss ret μ (merge r rho) n s
  | _ => True
  end.
Proof.
  induction e as [x|l|sup e sel args IHe IHargs|e IHe|e IHe|vs e IHe|label ps ls ss ret per IHss IHret]
    using src_ind'; intros Hok; cbn [ok_src] in Hok; repeat rewrite andb_true_iff in Hok.
  - split; auto. intros. apply read_merge; auto.
  - split; auto. intros. apply lit_merge.
  - split; auto. destruct Hok as [[[H1 H2] H3] H4]. destruct (IHe H1) as [Ie Be].
    rewrite forallb_forall in H2. rewrite Forall_forall in IHargs.
    assert (IA : forall l, incl l args -> forall rho n vs s, mergeable r rho ->
       eval_args fields l (pull r μ) rho n vs s = eval_args fields l μ (merge r rho) n vs s).
    { induction l as [|a l IH]; intros Hi rho n vs s Hm; simpl; auto.
      assert (In a args) by (apply Hi; left; auto).
      destruct (IHargs a) as [Ia _]; auto. rewrite Ia by auto.
      apply bind_ext. intros. apply IH; auto. intros y Hy. apply Hi. right; auto. }
    assert (IB : forall b, (b = e \/ In b args) -> is_block b = true -> forall rho n s, mergeable r rho ->
       eval_inline fields b (pull r μ) rho n s = eval_inline fields b μ (merge r rho) n s).
    { intros b Hb Hbl rho n s Hm. destruct b; try discriminate. simpl.
      rewrite <- merge_add_layer by auto.
      destruct Hb as [Hb | Hb]; [subst e|].
      - apply Be. apply mergeable_add_layer; auto.
      - destruct (IHargs _ Hb) as [_ Bb]; auto. apply Bb. apply mergeable_add_layer; auto. }
    intros rho n s Hm. rewrite !eval_send.
    destruct (special_form sup e sel args) as [k|] eqn:Es.
    + apply special_shape in Es. destruct Es as (-> & Es & Ha). destruct k; simpl.
      * destruct Ha as (a & -> & Ha). rewrite Ie by auto. apply bind_ext. intros v s1.
        destruct (takes k v); auto. apply IB; simpl; auto.
      * destruct Ha as (a & b & -> & Ha & Hb). rewrite Ie by auto. apply bind_ext. intros v s1.
        destruct (takes k v); apply IB; simpl; auto.
      * destruct Ha as (a & -> & Hr & Ha). apply repeat_while_ext; intros; apply IB; simpl; auto.
      * destruct Ha as (a & -> & Ha). rewrite Ie by auto. apply bind_ext. intros v s1.
        destruct (takes _ v); auto. apply IB; simpl; auto.
    + unfold eval_message. rewrite Ie by auto. apply bind_ext. intros v s1.
      rewrite IA by (auto using incl_refl). auto.
  - split; auto. intros. simpl. rewrite (proj1 (IHe Hok)) by auto. auto.
  - split; auto. intros. simpl. rewrite (proj1 (IHe Hok)) by auto. auto.
  - split; auto. destruct Hok as [H1 H2].
    assert (forallb name_ok vs = true) by (destruct vs; auto).
    intros. simpl. rewrite (proj1 (IHe H2)) by auto.
    apply bind_ext. intros. rewrite writes_merge by auto. auto.
  - split; auto. destruct Hok as [[[H1 H2] H3] H4]. intros rho n s Hm. revert s.
    rewrite forallb_forall in H3. rewrite Forall_forall in IHss.
    induction ss as [|e ss IH]; intros s; simpl.
    + destruct ret as [e|]; auto. simpl in IHret. rewrite (proj1 (IHret H4)) by auto.
      apply bind_ext. intros. apply return_merge; auto.
    + assert (E : forall s, eval e (pull r μ) rho n s = eval e μ (merge r rho) n s).
      { intros s0. apply (IHss e); auto. left; auto. apply H3. left; auto. }
      assert (IH' := IH (fun x Hx => IHss x (or_intror Hx)) (fun x Hx => H3 x (or_intror Hx))).
      destruct ss, ret; rewrite ?E; auto; apply bind_ext; intros; apply IH'.
Qed.
End Merge.

(** The blocks that are created do not change when levels are merged, only their activations. *)
Definition merged (r : nat) (p : src * env) : src * env := (fst p, merge r (snd p)).
Definition created_inl (b : src) (rho : env) : list (src * env) :=
  match b with SBlk _ _ ls ss ret _ => created_body ss ret (add_layer ls rho) | _ => [] end.
Lemma created_send sup r sel args rho : created (SSend sup r sel args) rho =
  match special_form sup r sel args with
  | Some (KWhile _) => created_inl r rho ++ flat_map (fun a => created_inl a rho) args
  | Some _ => created r rho ++ flat_map (fun a => created_inl a rho) args
  | None => created r rho ++ flat_map (fun a => created a rho) args
  end.
Proof. reflexivity. Qed.
Lemma created_merge r : forall e,
  (forall rho, mergeable r rho -> created e (merge r rho) = map (merged r) (created e rho)) /\
  (forall rho, mergeable r rho -> created_inl e (merge r rho) = map (merged r) (created_inl e rho)) /\
  match e with
  | SBlk _ _ _ ss ret _ => forall rho, mergeable r rho ->
      created_body ss ret (merge r rho) = map (merged r) (created_body ss ret rho)
  | _ => True
  end.
Proof.
  assert (FM : forall (f g : src -> env -> list (src * env)) l rho, mergeable r rho ->
    Forall (fun e => forall rho, mergeable r rho -> f e (merge r rho) = map (merged r) (f e rho)) l ->
    flat_map (fun e => f e (merge r rho)) l = map (merged r) (flat_map (fun e => f e rho) l)).
  { intros f _ l rho Hm H. induction H as [|e l He _ IH]; simpl; auto. rewrite map_app, IH, He; auto. }
  intros e. induction e as [n|l|sup e sel args IHr IHa|e IH|e IH|vs e IH|label ps ls ss ret per IHs IHr] using src_ind';
    try (split; [|split]; auto; fail); try (split; [|split; auto]; intros rho Hm; simpl; apply IH; auto; fail).
  - split; [|split; auto]. intros rho Hm. rewrite !created_send.
    assert (A1 : flat_map (fun a => created a (merge r rho)) args = map (merged r) (flat_map (fun a => created a rho) args)).
    { apply (FM created created); auto. eapply Forall_impl; [|exact IHa]. intros a Ha. apply Ha. }
    assert (A2 : flat_map (fun a => created_inl a (merge r rho)) args = map (merged r) (flat_map (fun a => created_inl a rho) args)).
    { apply (FM created_inl created_inl); auto. eapply Forall_impl; [|exact IHa]. intros a Ha. apply Ha. }
    destruct (special_form sup e sel args) as [[k|k|b|b]|]; rewrite map_app, ?A1, ?A2; f_equal; apply IHr; auto.
  - assert (B : forall rho, mergeable r rho -> created_body ss ret (merge r rho) = map (merged r) (created_body ss ret rho)).
    { intros rho Hm. unfold created_body. rewrite map_app. f_equal.
      - apply (FM created created); auto. eapply Forall_impl; [|exact IHs]. intros a Ha. apply Ha.
      - destruct ret as [e|]; auto. apply IHr; auto. }
    split; [reflexivity|split; auto]. intros rho Hm. cbn [created_inl]. rewrite <- merge_add_layer by auto.
    apply B. apply mergeable_add_layer; auto.
Qed.
Lemma body_merge r ss ret rho : mergeable r rho ->
  created_body ss ret (merge r rho) = map (merged r) (created_body ss ret rho).
Proof. exact (proj2 (proj2 (created_merge r (SBlk 0 [] [] ss ret false))) rho). Qed.
Lemma blks_low r c l : oblks c = l -> oblks (low_code r c) = map (merged r) l.
Proof. intros <-. apply oblks_low. Qed.
