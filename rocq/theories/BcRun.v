(** From structured code to the bytes of methods: what compiled methods do when they run. *)
From Coq Require Import ZArith Bool String Ascii List Lia.
From Verif Require Import Base LexModel ParseModel BcModel BcInterp BcSpec BcCode BcSim BcEval BcMono BcAdapt BcScope BcEmit BcInl BcRep BcGen BcExpr BcMsg BcBlk BcMeth.
Import ListNotations.
Open Scope nat_scope.
Open Scope list_scope.

Section Mono.
Context {S X : Type}.
Variable μ : machine S X.
Variable cap : nat.
Variable chain : list (list nat).
Variable lits : list literal.
Variable bs : list nat.
Notation run := (run μ cap chain lits bs).
(** More steps do not change an outcome. *)
Lemma run_more k k' pc st s : k <= k' -> run k pc st s <> Hang -> run k' pc st s = run k pc st s.
Proof.
  revert k' pc st s. induction k as [|k IH]; intros k' pc st s Hk H; [cbn in H; congruence|].
  destruct k' as [|k']; [lia|]. cbn [BcInterp.run] in *. destruct (step _ _ _ _ _ _ _ _); cbn [bind] in *; auto.
  apply IH; [lia|auto].
Qed.
End Mono.

(** Evaluation that always answers. *)
Definition answering {S X A} (f : nat -> S -> BcInterp.out S X A) : Prop := forall n s v s', f n s <> Done v s'.
Lemma method_answers {S X} fields ss ret (μ : machine S X) rho : answering (eval_method fields ss ret μ rho).
Proof.
  intros n. induction ss as [|e ss IH]; intros s v s' H; cbn [eval_method] in H.
  - destruct ret; [destruct (eval _ _ _ _ _ _); discriminate|destruct (m_rd _ _ _ _); discriminate].
  - destruct (eval _ _ _ _ _ _); try discriminate. cbn [bind] in H. eapply IH; eauto.
Qed.

Section Run.
Variable ce : cenv.
Notation fields := (ce_fields ce).
Context {S X : Type}.
Variable μ : machine S X.

Lemma run_code cap C lits A c bs L P h p (f : nat -> S -> BcInterp.out S X value) :
  enc fields C lits A 0 c bs L P -> typ c 0 = Some (h, p) -> p <= cap -> answering f ->
  (forall n s, exec μ c n [] s = bind (f n s) (fun v s => Done [v] s)) ->
  forall s, same_outcome f (fun k s => run μ cap (map fst C) lits bs k 0 [] s) s.
Proof.
  intros He Ht Hp Ha Hx s.
  pose proof (sim_code μ fields cap C lits bs A 0 c bs L P He [] [] 0 h p (eq_sym (app_nil_r bs)) eq_refl Ht Hp) as Hs.
  assert (E : forall n, f n s <> Hang -> exists K, forall k, K <= k -> run μ cap (map fst C) lits bs k 0 [] s = f n s).
  { intros n Hn. destruct (Hs n [] s eq_refl) as [H1 _]. rewrite Hx in H1. destruct H1 as [K H1].
    - destruct (f n s); cbn [bind]; congruence.
    - exists K. intros k Hk. replace k with (K + (k - K)) by lia. rewrite H1.
      destruct (f n s) eqn:Ef; cbn [bind]; auto. destruct (Ha _ _ _ _ Ef). }
  split; [exact E|]. intros k Hk.
  exists k. intros n Hn.
  assert (Hf : f n s <> Hang).
  { intros Hf. destruct (Hs n [] s eq_refl) as [_ H2]. rewrite Hx, Hf in H2. apply Hk, H2; auto. }
  destruct (E n Hf) as [K HK]. rewrite <- (HK (Nat.max K k)) by lia.
  apply run_more; [lia|auto].
Qed.

(** The code of a whole method. *)
Record meth_code (m : meth) (ps : list text) (ls : list (text * nat)) (ss : list src) (ret : option src)
  (C : cx) (A : allow) (body : list item) (h q : nat) : Prop := {
  mc_cx : map fst C = [map snd (me_locals m)];
  mc_enc : exists P, enc fields C (me_lits m) A 0 body (me_bytes m) (me_loops m) P;
  mc_typ : typ body 0 = Some (h, q);
  mc_max : (Z.of_nat q <= me_max m)%Z;
  mc_sem : computes body (fun S X μ n s => eval_method fields ss ret μ [Level [ls] (t_self :: ps)] n s);
  mc_blks : oblks body = created_body ss ret [Level [ls] (t_self :: ps)] }.
Lemma compiled_code p ps ls ss ret period m :
  forallb ok_src ss = true -> match ret with Some e => ok_src e | None => true end = true ->
  in_layer t_self ls = None ->
  compile_with ce p ps ls ss ret period = Ok m ->
  exists C A body h q, meth_code m ps ls ss ret C A body h q.
Proof.
  intros Hok Hokr Hself H. unfold compile_with, gen_method in H.
  destruct (new_scope (t_self :: ps) ls) as [sc|] eqn:En; [|discriminate]. cbn [Base.bind] in H.
  assert (Esc : sc_args sc = t_self :: ps /\ sc_locals sc = plain_locals ls /\ sc_out sc = []).
  { unfold new_scope in En. destruct (no_dup (t_self :: ps) && no_dup (map fst ls)); [|discriminate]. injection En as <-. auto. }
  destruct Esc as (Ea & Elo & Eo).
  set (rho := [Level [ls] (t_self :: ps)]).
  assert (Hst : st_ok [sc] rho).
  { split.
    - discriminate.
    - constructor; [|constructor]. split; [simpl; auto|]. exists ls, []. rewrite app_nil_r. split; [reflexivity|]. split; auto.
    - split; [|exact Logic.I]. rewrite Eo. intros _ i [].
    - split; [|exact Logic.I]. intros Hn. congruence. }
  assert (Hr0 : rep fields [sc] (mg_new p) [] [] 0).
  { split; try reflexivity; try constructor.
    - exists [], []. split; [constructor|reflexivity].
    - exists 0. split; reflexivity.
    - reflexivity.
    - reflexivity. }
  destruct (gen_method_body ce ss ret period (mg_new p, [sc])) as [[g1 scs1]|] eqn:Eg; [|discriminate]. cbn [Base.bind] in H.
  destruct (method_ok ce ret period rho) with (ss := ss) (scs := [sc]) (g := mg_new p) (c0 := @nil item) (tl := @nil oper) (g' := g1) (scs' := scs1)
    as (body & h & F & Hle & Hsem & Hblk); auto.
  { unfold self_arg, rho. cbn [resolve]. unfold in_level. cbn [in_layers lv_layers lv_args]. rewrite Hself. reflexivity. }
  inversion Hle as [|? sc' ? scs2 Hsc Hscs]; subst. inversion Hscs; subst. clear Hscs.
  cbn [assemble] in H. destruct (assemble_trivial false (max_ctx [sc']) g1) as [tr|] eqn:Et; [|discriminate]. cbn [Base.bind] in H.
  assert (Em : m = Meth 0 (g_bytes g1) (g_lits g1) (sc_locals sc') (length (sc_args sc')) (g_loops g1) (g_max g1 + 2 + 2) tr).
  { destruct tr; [congruence|]. destruct (forallb (fun b => b <=? 255) (g_bytes g1)); [congruence|discriminate]. } clear H.
  destruct F as [(P & F1) (q & F2 & F3)]. change (code [] [] ++ body) with body in *.
  subst m. exists (cx_of [sc']), (A_of [sc']), body, h, q.
  split; cbn [me_max me_locals me_lits me_bytes me_loops]; eauto. lia.
Qed.

(** Whole methods. *)
Theorem compiled p ps ls ss ret period m :
  forallb ok_src ss = true -> match ret with Some e => ok_src e | None => true end = true ->
  in_layer t_self ls = None ->
  compile_with ce p ps ls ss ret period = Ok m -> lawful μ ->
  forall s, same_outcome (eval_method fields ss ret μ [Level [ls] (t_self :: ps)]) (run_method μ [] m) s.
Proof.
  intros Hok Hokr Hself H Hμ s.
  destruct (compiled_code _ _ _ _ _ _ _ Hok Hokr Hself H) as (C & A & body & h & q & [M1 (P & M2) M3 M4 M5 M6]).
  unfold run_method. rewrite <- M1.
  eapply run_code; [exact M2|exact M3|lia|apply method_answers|].
  intros n s1. rewrite M5 by auto. apply bind_ext. reflexivity.
Qed.
End Run.
