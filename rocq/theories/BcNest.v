(** Every block method inside a compiled method runs as its block literal means. *)
From Coq Require Import ZArith Bool String Ascii List Lia.
From Verif Require Import Base LexModel ParseModel BcModel BcInterp BcSpec BcTab BcCode BcSim BcEval BcMono BcAdapt BcScope BcEmit BcInl BcRep BcGen BcExpr BcMsg BcBlk BcMeth BcRun.
Import ListNotations.
Open Scope nat_scope.
Open Scope list_scope.

(** * Source side *)
Definition opened (p : src * env) : list (src * env) :=
  match fst p with
  | SBlk _ ps ls ss ret _ => p :: body_blocks ss ret (add_level ps ls (snd p))
  | _ => []
  end.
Definition blocks_inl (b : src) (rho : env) : list (src * env) :=
  match b with SBlk _ _ ls ss ret _ => body_blocks ss ret (add_layer ls rho) | _ => [] end.
Lemma flat_map_flat {A B C} (f : B -> list C) (g : A -> list B) l :
  flat_map f (flat_map g l) = flat_map (fun x => flat_map f (g x)) l.
Proof. induction l as [|x l IH]; simpl; auto. rewrite flat_map_app, IH. reflexivity. Qed.
Lemma flat_map_ext_in' {A B} (f g : A -> list B) l : Forall (fun x => f x = g x) l -> flat_map f l = flat_map g l.
Proof. induction 1; simpl; auto. congruence. Qed.
Lemma blocks_send sup r sel args rho : blocks (SSend sup r sel args) rho =
  match special_form sup r sel args with
  | Some (KWhile _) => blocks_inl r rho ++ flat_map (fun a => blocks_inl a rho) args
  | Some _ => blocks r rho ++ flat_map (fun a => blocks_inl a rho) args
  | None => blocks r rho ++ flat_map (fun a => blocks a rho) args
  end.
Proof. reflexivity. Qed.
Lemma blocks_open : forall e,
  (forall rho, blocks e rho = flat_map opened (created e rho)) /\
  (forall rho, blocks_inl e rho = flat_map opened (created_inl e rho)).
Proof.
  induction e as [n|l|sup r sel args IHr IHa|e IH|e IH|vs e IH|label ps ls ss ret per IHs IHr] using src_ind';
    (split; [intros rho|intros rho; try reflexivity]); try reflexivity; try apply IH.
  - rewrite blocks_send, created_send. destruct IHr as [IHr IHr'].
    assert (A1 : flat_map (fun a => blocks_inl a rho) args = flat_map opened (flat_map (fun a => created_inl a rho) args)).
    { rewrite flat_map_flat. apply flat_map_ext_in'. eapply Forall_impl; [|exact IHa]. intros a [_ H]. apply H. }
    assert (A2 : flat_map (fun a => blocks a rho) args = flat_map opened (flat_map (fun a => created a rho) args)).
    { rewrite flat_map_flat. apply flat_map_ext_in'. eapply Forall_impl; [|exact IHa]. intros a [H _]. apply H. }
    destruct (special_form sup r sel args) as [[]|]; rewrite flat_map_app; congruence.
  - cbn [created flat_map]. rewrite app_nil_r. reflexivity.
  - cbn [blocks_inl created_inl]. unfold body_blocks, created_body. rewrite flat_map_app, flat_map_flat. f_equal.
    + apply flat_map_ext_in'. eapply Forall_impl; [|exact IHs]. intros e [H _]. apply H.
    + destruct ret; auto. apply IHr.
Qed.
Lemma body_open ss ret rho : body_blocks ss ret rho = flat_map opened (created_body ss ret rho).
Proof.
  unfold body_blocks, created_body. rewrite flat_map_app, flat_map_flat. f_equal.
  - apply flat_map_ext. intros e. apply blocks_open.
  - destruct ret; auto. apply blocks_open.
Qed.

(** * Bytes side *)
Section Nest.
Variable ce : cenv.
Notation fields := (ce_fields ce).
Definition pair_ok (x : list (list nat) * meth) (y : src * env) : Prop :=
  exists C A, fst x = map fst C /\ impl fields C A (snd y) (fst y) (snd x).
Notation tables := (map (fun l => match l with LM m => fun o => (o, m) :: inside m o | _ => fun _ => [] end)).
Definition found (lits : list literal) (C : cx) (is : list nat) : list (list (list nat) * meth) :=
  flat_map (fun i => nth i (tables lits) (fun _ => []) (map fst C)) is.

(** A piece of code is followed by anything. *)
Definition sweeps (bs : list nat) (is : list nat) : Prop := forall r, pushed 0 (bs ++ r) = is ++ pushed 0 r.
Lemma sweeps_app a b x y : sweeps a x -> sweeps b y -> sweeps (a ++ b) (x ++ y).
Proof. intros Ha Hb r. rewrite <- app_assoc, Ha, Hb, app_assoc. reflexivity. Qed.
Lemma sweeps_nil : sweeps [] [].
Proof. intros r. reflexivity. Qed.
Lemma sweeps_jump b k off j : jump_form b = Some (k, false) -> enc_jump b off j -> sweeps j [].
Proof.
  intros Hb [-> | (x & y & -> & _)] r; destruct b; try discriminate; reflexivity.
Qed.
Lemma sweeps_jump_bc c p off j : enc_jump (jump_bc c p) off j -> sweeps j [].
Proof. eapply sweeps_jump, jump_form_jump. Qed.

Lemma found_app lits C a b : found lits C (a ++ b) = found lits C a ++ found lits C b.
Proof. apply flat_map_app. Qed.

Lemma inside_eq label bytes lits locals na loops mx tr C args :
  inside (Meth label bytes lits locals na loops mx tr) (map fst C) =
  found lits ((map snd locals, args) :: C) (pushed 0 bytes).
Proof. reflexivity. Qed.

Definition P_op (C : cx) (ls : list literal) (A : allow) (o : op) (b : bc) (bo : list nat) : Prop :=
  exists is, sweeps bo is /\ Forall2 pair_ok (found ls C is) (flat_map opened (oblks_item (IOp o))).
Definition P_enc (C : cx) (ls : list literal) (A : allow) (i : nat) (c : list item) (bs : list nat)
  (L P : list (nat * nat)) : Prop :=
  exists is, sweeps bs is /\ Forall2 pair_ok (found ls C is) (flat_map opened (oblks c)).
Definition P_impl (C : cx) (A : allow) (rho : env) (b : src) (m : meth) : Prop :=
  Forall2 pair_ok ((map fst C, m) :: inside m (map fst C)) (opened (b, rho)).

Lemma nested_all :
  (forall C ls A o b bo, enc_op fields C ls A o b bo -> P_op C ls A o b bo) /\
  (forall C ls A i c bs L P, enc fields C ls A i c bs L P -> P_enc C ls A i c bs L P) /\
  (forall C A rho b m, impl fields C A rho b m -> P_impl C A rho b m).
Proof.
  apply enc_all.
  all: try (intros; exists []; split; [intros r; reflexivity|constructor]).
  - (* push_block *)
    intros C ls A i m b rho Hi _ _ H. exists [i]. split; [intros r; reflexivity|].
    cbn [found flat_map oblks_item]. unfold found. cbn [flat_map]. rewrite !app_nil_r.
    erewrite (nth_error_nth (tables ls)) by (rewrite nth_error_map, Hi; reflexivity). exact H.
  - intros C ls A i m b rho Hi _ _ H. exists [i]. split; [intros r; reflexivity|].
    unfold found. cbn [flat_map oblks_item]. rewrite !app_nil_r.
    erewrite (nth_error_nth (tables ls)) by (rewrite nth_error_map, Hi; reflexivity). exact H.
  - intros C ls A i t Hi. exists []. split; [|constructor]. intros r.
    destruct (send_bc_cases (nargs t)) as [E|[E|[E|E]]]; rewrite E; reflexivity.
  - (* bytecode, then the rest *)
    intros C ls A i o b bo c bs L P _ (is1 & S1 & F1) _ (is2 & S2 & F2). exists (is1 ++ is2).
    split; [apply sweeps_app; auto|]. rewrite found_app. change (oblks (IOp o :: c)) with (oblks_item (IOp o) ++ oblks c).
    rewrite flat_map_app. apply Forall2_app; auto.
  - intros C ls A i k b bb Lb Pb j c bs L P _ (is1 & S1 & F1) Hj _ (is2 & S2 & F2). exists ([] ++ is1 ++ is2).
    split; [apply sweeps_app; [eapply sweeps_jump_bc; eauto|apply sweeps_app; auto]|].
    cbn [app]. rewrite found_app. change (oblks (IThen k b :: c)) with (oblks b ++ oblks c).
    rewrite flat_map_app. apply Forall2_app; auto.
  - intros C ls A i k b1 b2 bb1 bb2 L1 P1 L2 P2 j1 j2 c bs L P _ (is1 & S1 & F1) Hj1 _ (is2 & S2 & F2) Hj2 _ _ (is3 & S3 & F3).
    exists ([] ++ is1 ++ [] ++ is2 ++ is3). split.
    { apply sweeps_app; [eapply sweeps_jump_bc; eauto|]. apply sweeps_app; auto.
      apply sweeps_app; [eapply sweeps_jump; eauto; reflexivity|]. apply sweeps_app; auto. }
    cbn [app]. rewrite !found_app. change (oblks (IElse k b1 b2 :: c)) with ((oblks b1 ++ oblks b2) ++ oblks c).
    rewrite <- app_assoc, !flat_map_app. repeat apply Forall2_app; auto.
  - intros C ls A i k t b bt bb Lt Pt Lb Pb j1 j2 c bs L P _ (is1 & S1 & F1) Hj1 _ (is2 & S2 & F2) Hj2 _ (is3 & S3 & F3).
    exists (is1 ++ [] ++ is2 ++ [] ++ is3). split.
    { apply sweeps_app; auto. apply sweeps_app; [eapply sweeps_jump_bc; eauto|]. apply sweeps_app; auto.
      apply sweeps_app; auto. eapply sweeps_jump; eauto; reflexivity. }
    cbn [app]. rewrite !found_app. change (oblks (ILoop k t b :: c)) with ((oblks t ++ oblks b) ++ oblks c).
    rewrite <- app_assoc, !flat_map_app. repeat apply Forall2_app; auto.
  - (* block methods *)
    intros C A rho label ps ls ss ret per out bytes lits locals loops P mx tr body fin p
      Hok Hl Ho He (is & Hs & HF) Hn Hf Hsem Ht Hty Hp Hb.
    unfold P_impl, opened. cbn [fst snd]. constructor.
    + exists C, A. split; [reflexivity|]. eapply Impl; eauto.
    + rewrite (inside_eq label bytes lits locals _ loops mx tr C (t_block_self :: ps)).
      specialize (Hs []). rewrite app_nil_r in Hs. rewrite Hs. cbn [pushed]. rewrite app_nil_r.
      rewrite body_open, <- Hb.
      replace (oblks body) with (oblks (body ++ [IOp fin])); [exact HF|].
      rewrite oblks_app. destruct fin; try contradiction; apply app_nil_r.
Qed.

(** Running the method of a block. *)
Lemma impl_runs {S X} (μ : machine S X) C A rho b m : lawful μ -> impl fields C A rho b m ->
  label_is m b /\
  forall s, same_outcome (eval_closure fields b rho μ) (run_method μ (map fst C) m) s.
Proof.
  intros Hμ H. destruct H as [C A rho label ps ls ss ret per out bytes lits locals loops P mx tr body fin p
      Hok Hl Ho He Hn Hf Hsem Ht Hty Hp Hb].
  split; [reflexivity|]. intros s. unfold run_method. cbn [me_max me_locals me_lits me_bytes].
  change (map snd locals :: map fst C) with (map fst ((map snd locals, t_block_self :: ps) :: C)).
  eapply (run_code ce); [exact He|exact Hty|lia| |].
  - intros n s1 v s2 E. cbn [eval_closure] in E. destruct (eval_block _ _ _ _ _ _ _); discriminate.
  - intros n s1. cbn [eval_closure]. specialize (Hsem S X μ Hμ n [] s1). rewrite exec_app.
    destruct fin; try contradiction.
    + cbn [inl_part] in Hsem. rewrite Hsem, !bind_assoc. apply bind_ext. intros v s2. cbn [bind]. rewrite exec_op1. reflexivity.
    + cbn [inl_part] in Hsem. rewrite exec_app in Hsem. rewrite Hsem.
      assert (Hd : forall st s, exec μ (body ++ [IOp (ORetNl k)]) n [] s1 <> Done st s).
      { intros st s2 E. rewrite exec_app in E. destruct (exec μ body n [] s1) as [st1 s3| | | |]; try discriminate.
        cbn [bind] in E. rewrite exec_op1 in E. cbn [exec_op] in E. destruct st1; cbn [pop] in E; [discriminate|].
        destruct (m_nlr _ _ _ _); discriminate. }
      rewrite exec_app, Hsem in Hd. destruct (eval_block _ _ _ _ _ _ _) as [v2 s2| | | |]; cbn [bind]; auto.
      destruct (Hd [v2] s2). reflexivity.
Qed.
End Nest.

(** All the methods inside a compiled method. *)
Lemma compiled_inside ce p ps ls ss ret period m :
  forallb ok_src ss = true -> match ret with Some e => ok_src e | None => true end = true ->
  in_layer t_self ls = None ->
  compile_with ce p ps ls ss ret period = Ok m ->
  Forall2 (pair_ok ce) (inside m []) (body_blocks ss ret [Level [ls] (t_self :: ps)]).
Proof.
  intros Hok Hokr Hself H.
  destruct (compiled_code _ _ _ _ _ _ _ _ Hok Hokr Hself H) as (C & A & body & h & q & [M1 (P & M2) M3 M4 M5 M6]).
  destruct (proj1 (proj2 (nested_all ce)) _ _ _ _ _ _ _ _ M2) as (is & Hs & HF).
  rewrite body_open, <- M6.
  replace (inside m []) with (found (me_lits m) C is); [exact HF|].
  specialize (Hs []). rewrite app_nil_r in Hs. cbn [pushed] in Hs. rewrite app_nil_r in Hs.
  destruct m as [label bytes lits locals na loops mx tr]. cbn [me_locals me_lits me_bytes] in *.
  cbn [inside]. rewrite Hs. unfold found. rewrite M1. reflexivity.
Qed.
