(** Control structures in place and as messages: whole programs. *)
From Coq Require Import ZArith Bool String Ascii List Lia.
From Verif Require Import Base LexModel ParseModel BcModel BcInterp BcSpec BcTab BcCode BcEval BcLex VmModel VmSpec VmRel VmInv CtlModel CtlSpec CtlSim CtlRun.
Import ListNotations.
Open Scope nat_scope.
Open Scope list_scope.

Lemma plain_all_of ss : Forall plain ss -> plain_all ss.
Proof. induction 1; cbn; auto. Qed.
Lemma ms_lex m : ms_blocks m = map act_pair (lex_of m).
Proof. unfold ms_blocks, lex_of. change (ms_env m) with (activations (lex_env m)). apply lex_body_blocks. reflexivity. Qed.
Lemma find_map' {A B} (f : B -> bool) (g : A -> B) l : find f (map g l) = option_map g (find (fun a => f (g a)) l).
Proof. induction l as [|a l IH]; cbn; auto. destruct (f (g a)); auto. Qed.
Lemma block_lex m l : block_of m l = option_map act_pair (lex_block m l).
Proof. unfold block_of, lex_block. rewrite ms_lex, find_map'. reflexivity. Qed.
(** What is inside a block of a method is inside the method. *)
Lemma lex_inside : forall e,
  (forall L b L', In (b, L') (lex_blocks e L) -> match b with
     | SBlk _ ps ls ss ret _ => incl (lex_body ss ret ((true, Level [ls] (t_block_self :: ps)) :: L')) (lex_blocks e L) | _ => True end) /\
  (forall L b L', In (b, L') (lex_inl e L) -> match b with
     | SBlk _ ps ls ss ret _ => incl (lex_body ss ret ((true, Level [ls] (t_block_self :: ps)) :: L')) (lex_inl e L) | _ => True end).
Proof.
  pose (ins := fun (b : src) (L' : lexenv) (l : list (src * lexenv)) => match b with
     | SBlk _ ps ls ss ret _ => incl (lex_body ss ret ((true, Level [ls] (t_block_self :: ps)) :: L')) l | _ => True end).
  assert (Mono : forall b L' l l', incl l l' -> ins b L' l -> ins b L' l').
  { intros b L' l l' H. destruct b; auto. cbn. intros. eapply incl_tran; eauto. }
  assert (Flat : forall (f : src -> list (src * lexenv)) ss, Forall (fun e => forall b L', In (b, L') (f e) -> ins b L' (f e)) ss ->
            forall b L', In (b, L') (flat_map f ss) -> ins b L' (flat_map f ss)).
  { intros f ss H b L' Hi. apply in_flat_map in Hi as (e & He & Hi). rewrite Forall_forall in H. eapply Mono; [|apply (H e He); auto].
    intros x Hx. apply in_flat_map. eauto. }
  assert (App : forall l1 l2, (forall b L', In (b, L') l1 -> ins b L' l1) -> (forall b L', In (b, L') l2 -> ins b L' l2) ->
            forall b L', In (b, L') (l1 ++ l2) -> ins b L' (l1 ++ l2)).
  { intros l1 l2 H1 H2 b L' Hi. apply in_app_or in Hi as [Hi|Hi].
    - eapply Mono; [|apply H1; auto]. apply incl_appl, incl_refl.
    - eapply Mono; [|apply H2; auto]. apply incl_appr, incl_refl. }
  assert (Body : forall ss ret L, Forall (fun e => forall b L', In (b, L') (lex_blocks e L) -> ins b L' (lex_blocks e L)) ss ->
            (forall e, ret = Some e -> forall b L', In (b, L') (lex_blocks e L) -> ins b L' (lex_blocks e L)) ->
            forall b L', In (b, L') (lex_body ss ret L) -> ins b L' (lex_body ss ret L)).
  { intros ss ret L H1 H2. unfold lex_body. apply App; [apply Flat; auto|]. destruct ret; [apply H2; auto|intros ? ? []]. }
  change (forall e, (forall L b L', In (b, L') (lex_blocks e L) -> ins b L' (lex_blocks e L)) /\
                    (forall L b L', In (b, L') (lex_inl e L) -> ins b L' (lex_inl e L))).
  induction e as [n|l|sup r sel args IHr IHa|e IH|e IH|vs e IH|label ps ls ss ret per IHs IHr] using src_ind';
    (split; [intros L|intros L; try (intros ? ? []; fail)]); try (intros ? ? []; fail); try (apply IH; fail).
  - rewrite lex_send. destruct IHr as [R1 R2].
    assert (Ha1 : forall b L', In (b, L') (flat_map (fun a => lex_inl a L) args) -> ins b L' (flat_map (fun a => lex_inl a L) args)).
    { apply Flat. eapply Forall_impl; [|exact IHa]. intros a [_ H]. auto. }
    assert (Ha2 : forall b L', In (b, L') (flat_map (fun a => lex_blocks a L) args) -> ins b L' (flat_map (fun a => lex_blocks a L) args)).
    { apply Flat. eapply Forall_impl; [|exact IHa]. intros a [H _]. auto. }
    destruct (special_form sup r sel args) as [[]|]; apply App; auto.
  - change (lex_blocks (SBlk label ps ls ss ret per) L) with
      ((SBlk label ps ls ss ret per, L) :: lex_body ss ret ((true, Level [ls] (t_block_self :: ps)) :: L)).
    intros b L' [E|Hi].
    + injection E. intros <- <-. cbn. apply incl_tl, incl_refl.
    + eapply Mono; [apply incl_tl, incl_refl|]. apply Body; auto.
      * eapply Forall_impl; [|exact IHs]. intros e [H _]. auto.
      * intros e ->. apply IHr.
  - unfold lex_inl. apply Body.
    + eapply Forall_impl; [|exact IHs]. intros e [H _]. auto.
    + intros e ->. apply IHr.
Qed.
Lemma lex_of_inside m l ps ls ss ret per L : In (SBlk l ps ls ss ret per, L) (lex_of m) ->
  incl (lex_body ss ret ((true, Level [ls] (t_block_self :: ps)) :: L)) (lex_of m).
Proof.
  unfold lex_of, lex_body at 1 3. intros H. apply in_app_or in H as [H|H].
  - apply in_flat_map in H as (e & He & H). apply (proj1 (lex_inside e)) in H. intros x Hx. apply in_or_app. left. apply in_flat_map. eauto.
  - destruct (ms_ret m) as [e|]; [|destruct H]. apply (proj1 (lex_inside e)) in H. intros x Hx. apply in_or_app. right. auto.
Qed.
(** Its statements are as considered. *)
Lemma ok_inside : forall e, ok_src e = true ->
  (forall L, Forall (fun p => ok_src (fst p) = true) (lex_blocks e L)) /\ (forall L, Forall (fun p => ok_src (fst p) = true) (lex_inl e L)).
Proof.
  assert (Flat : forall (f : src -> list (src * lexenv)) ss, Forall (fun e => Forall (fun p => ok_src (fst p) = true) (f e)) ss ->
            Forall (fun p => ok_src (fst p) = true) (flat_map f ss)).
  { induction 1; cbn [flat_map]; auto. apply Forall_app; auto. }
  assert (Body : forall ss ret L, Forall (fun e => ok_src e = true -> Forall (fun p => ok_src (fst p) = true) (lex_blocks e L)) ss ->
            (forall e, ret = Some e -> ok_src e = true -> Forall (fun p => ok_src (fst p) = true) (lex_blocks e L)) ->
            forallb ok_src ss = true -> ok_ret ret = true -> Forall (fun p => ok_src (fst p) = true) (lex_body ss ret L)).
  { intros ss ret L H1 H2 O1 O2. unfold lex_body. apply Forall_app. split.
    - apply Flat. rewrite forallb_forall in O1. rewrite Forall_forall in *. auto.
    - destruct ret; auto. }
  induction e as [n|l|sup r sel args IHr IHa|e IH|e IH|vs e IH|label ps ls ss ret per IHs IHr] using src_ind';
    intros Ho; cbn [ok_src] in Ho; (split; [intros L|intros L; try constructor]); try (constructor; fail); try (apply IH; auto; fail).
  - apply andb_true_iff in Ho as [Ho O4]. apply andb_true_iff in Ho as [Ho O3]. apply andb_true_iff in Ho as [O1 O2].
    rewrite lex_send. destruct (IHr O1) as [R1 R2]. rewrite forallb_forall in O2. rewrite Forall_forall in IHa.
    assert (Ha1 : Forall (fun p => ok_src (fst p) = true) (flat_map (fun a => lex_inl a L) args)).
    { apply Flat. apply Forall_forall. intros a Hi. apply IHa; auto. }
    assert (Ha2 : Forall (fun p => ok_src (fst p) = true) (flat_map (fun a => lex_blocks a L) args)).
    { apply Flat. apply Forall_forall. intros a Hi. apply IHa; auto. }
    destruct (special_form sup r sel args) as [[]|]; apply Forall_app; auto.
  - apply andb_true_iff in Ho as [_ Ho]. apply IH; auto.
  - change (lex_blocks (SBlk label ps ls ss ret per) L) with
      ((SBlk label ps ls ss ret per, L) :: lex_body ss ret ((true, Level [ls] (t_block_self :: ps)) :: L)).
    constructor; [exact Ho|]. apply andb_true_iff in Ho as [Ho O2]. apply andb_true_iff in Ho as [Ho O1]. apply Body; auto.
    + eapply Forall_impl; [|exact IHs]. intros e H He. apply H; auto.
    + intros e -> He. apply IHr; auto.
  - apply andb_true_iff in Ho as [Ho O2]. apply andb_true_iff in Ho as [Ho O1]. unfold lex_inl. apply Body; auto.
    + eapply Forall_impl; [|exact IHs]. intros e H He. apply H; auto.
    + intros e -> He. apply IHr; auto.
Qed.
Lemma ok_lex_of m p : forallb ok_src (ms_body m) = true -> ok_ret (ms_ret m) = true -> In p (lex_of m) -> ok_src (fst p) = true.
Proof.
  intros O1 O2 H. unfold lex_of, lex_body in H. apply in_app_or in H as [H|H].
  - apply in_flat_map in H as (e & He & H). rewrite forallb_forall in O1. pose proof (proj1 (ok_inside e (O1 e He)) (lex_env m)) as G.
    rewrite Forall_forall in G. auto.
  - destruct (ms_ret m) as [e|]; [|destruct H]. pose proof (proj1 (ok_inside e O2) (lex_env m)) as G. rewrite Forall_forall in G. auto.
Qed.

Section Call.
Variable P : prog.
Variable M : nat -> option msrc.
Hypothesis HP : ok_prog M P.
Hypothesis Htidy : forall mid m, M mid = Some m -> tidy_method m.
Hypothesis Hblind : blind_prog P.
Notation sim := (sim M).
Lemma labels_nodup mid m : M mid = Some m -> NoDup (map (fun p => label_of (fst p)) (lex_of m)).
Proof.
  intros H. destruct HP as (_ & _ & H3). destruct (H3 _ _ H) as [(_ & _ & N) _]. rewrite ms_lex, map_map in N. exact N.
Qed.
(** Entering an activation. *)
Lemma activation_sim W s1 s2 m args o1 o2 ids ids' (b1 b2 : nat -> vm -> vout value) : sim W s1 s2 ->
  match o1, o2 with
  | None, None => True
  | Some o1, Some o2 => args <> [] /\ exists y, nth_error W o2 = Some y /\ w_to y = o1
  | _, _ => False
  end ->
  E M (length (v_frames s1)) ids' (W ++ [Wf (length (v_frames s1)) ids true]) (push_frame m args o1 s1) (push_frame m args o2 s2)
    (b1 (length (v_frames s1)) (push_frame m args o1 s1)) (b2 (length (v_frames s2)) (push_frame m args o2 s2)) ->
  C M W s1 s2 (activation b1 m args o1 s1) (activation b2 m args o2 s2).
Proof.
  intros H Ho HE. unfold activation. set (W1 := W ++ [Wf (length (v_frames s1)) ids true]) in *.
  assert (S1 : sim W1 (push_frame m args o1 s1) (push_frame m args o2 s2)) by (apply sim_push; auto).
  assert (Hl := m_len _ _ _ _ H).
  assert (Q : forall W' t1 t2, now M (length (v_frames s1)) ids' W1 (push_frame m args o1 s1) (push_frame m args o2 s2) W' t1 t2 ->
            called M W s1 s2 W' t1 t2 /\ nth_error W' (length (v_frames s2)) = Some (Wf (length (v_frames s1)) ids true)).
  { intros W' t1 t2 [G S]. split.
    - intros F. split; auto. destruct G as ((new & -> & A) & K & Le). split; [|split].
      + unfold W1. exists (Wf (length (v_frames s1)) ids true :: new). rewrite <- app_assoc. split; auto. constructor; [right; cbn; lia|].
        eapply Forall_impl; [|exact A]. cbn. intros x [[Ex _]|Ex]; right; [lia|]. rewrite app_length in Ex. lia.
      + eapply keeps_trans; [|exact K]. apply keeps_app.
      + cbn in Le. rewrite app_length in Le. lia.
    - eapply grows_nth; [exact G|]. unfold W1. rewrite <- Hl. apply nth_last. }
  destruct HE as [o| |a W' t1 t2 N|v W' t1 t2 N|v W' t1 t2 h x N Hx Ox Eh|v W' t1 t2 h x N Hx Ox|e W' t1 t2 N].
  - destruct o as [| |[]| |]; constructor.
  - constructor.
  - eapply R_done. exact (proj1 (Q _ _ _ N)).
  - eapply R_done. exact (proj1 (Q _ _ _ N)).
  - destruct (Q _ _ _ N) as [Qc Qn]. injection Eh. intros Ex.
    assert (h = length (v_frames s2)) by (eapply (m_own _ _ _ _ (proj2 N)); eauto). subst h. rewrite Nat.eqb_refl. eapply R_done; eauto.
  - destruct (Q _ _ _ N) as [Qc Qn].
    destruct (Nat.eqb_spec (w_to x) (length (v_frames s1))) as [Ex|Ex].
    + assert (h = length (v_frames s2)) by (eapply (m_own _ _ _ _ (proj2 N)); eauto). subst h. rewrite Nat.eqb_refl. eapply R_done; eauto.
    + destruct (Nat.eqb_spec h (length (v_frames s2))) as [Eh|Eh].
      * subst h. exfalso. apply Ex. rewrite Qn in Hx. injection Hx. intros <-. reflexivity.
      * eapply R_ret; eauto.
  - eapply R_py. exact (proj1 (Q _ _ _ N)).
Qed.
Lemma fresh_new W s1 s2 ids ids' : sim W s1 s2 -> (forall d, In d ids -> In d ids' -> False) ->
  fresh (W ++ [Wf (length (v_frames s1)) ids true]) (length (v_frames s1)) ids'.
Proof.
  intros H Hd x d Hx Ex Hi. apply in_app_or in Hx as [Hx|[<- | []]].
  - apply In_nth_error in Hx as (i & Hx). destruct (sim_lt _ _ _ _ _ _ H Hx). lia.
  - cbn. intros Hi'. eauto.
Qed.
Lemma call_sim n : forall stk1 stk2 c blk1 blk2 args W s1 s2, sim W s1 s2 -> stk_sim W stk1 stk2 ->
  match blk1, blk2 with
  | None, None => True
  | Some (l1, c1), Some (l2, c2) => l1 = l2 /\ args <> [] /\ exists m, c = CMeth m /\ blk_sim M W (v_frames s2) m l1 c1 c2
  | _, _ => False
  end ->
  C M W s1 s2 (spec_at P n stk1 c blk1 args s1) (msg_at P M n stk2 c blk2 args s2).
Proof.
  assert (Hhon : honest_prog P) by apply HP.
  induction n as [|n IH]; intros stk1 stk2 c blk1 blk2 args W s1 s2 H K Hb; cbn [spec_at msg_at]; [constructor|].
  assert (Hcall : forall stk1 stk2 c args W s1 s2, sim W s1 s2 -> stk_sim W stk1 stk2 ->
            C M W s1 s2 (spec_at P n stk1 c None args s1) (msg_at P M n stk2 c None args s2)).
  { intros. apply IH; auto. }
  destruct c as [m|p].
  2:{ apply (act_sim P M Hblind Hhon _ _ _ _ stk1 stk2); auto.
      - intros m l c1 c2 args' W' t1 t2 H' K' Ha B. apply IH; auto. repeat split; auto. exists m. auto.
      - apply Hhon.
      - apply Hblind. }
  destruct (M m) as [ms|] eqn:Em.
  2:{ assert (Eb : p_body P = source_body M) by apply HP. rewrite Eb. unfold activation, source_body, msg_body. rewrite Em.
      destruct blk1 as [[]|], blk2 as [[]|]; constructor. }
  pose proof (labels_nodup _ _ Em) as Hlab. destruct (Htidy _ _ Em) as [(T1 & T2 & T3) T4].
  assert (Eb : p_body P = source_body M) by apply HP. rewrite Eb.
  destruct HP as (_ & _ & Hmeth). destruct (Hmeth _ _ Em) as [(O1 & O2 & _) _].
  assert (Hl := m_len _ _ _ _ H).
  destruct blk1 as [[l c1]|], blk2 as [[l2 c2]|]; try contradiction; cbn [option_map fst snd].
  - destruct Hb as (<- & Hargs & m' & Em' & x & ms' & b & L & Hx & Ex & Ems & Eblk & Hsc). injection Em'. intros <-.
    rewrite Em in Ems. injection Ems. intros <-. clear Em' Ems.
    pose proof (find_some _ _ Eblk) as [Hin _].
    destruct b as [| | | | | |l' ps ls ss ret per];
      try (unfold C; eapply (activation_sim W s1 s2 m args (Some c1) (Some c2) [] []); [exact H|split; eauto|];
           unfold source_body, msg_body; rewrite Em, block_lex, Eblk; constructor).
    assert (T : tidy ls ss ret).
    { rewrite Forall_forall in T4. apply (T4 (act_pair (SBlk l' ps ls ss ret per, L))). rewrite ms_lex. apply in_map. exact Hin. }
    destruct T as (B1 & B2 & B3). destruct (nodup_app _ _ B1) as (N1 & N2 & N3).
    pose proof (ok_lex_of ms _ O1 O2 Hin) as Ob. cbn [fst ok_src] in Ob.
    apply andb_true_iff in Ob as [Ob Ob2]. apply andb_true_iff in Ob as [Ob Ob1].
    assert (HL : lex_ok L).
    { pose proof (lex_body_ok (ms_body ms) (ms_ret ms) (lex_env ms) eq_refl) as Q. rewrite Forall_forall in Q. apply (Q _ Hin). }
    apply (activation_sim W s1 s2 m args (Some c1) (Some c2) (map snd ls) (body_ids ss ret)); auto.
    { split; eauto. }
    unfold source_body, msg_body. rewrite Em, block_lex, Eblk. cbn [option_map act_pair fst snd eval_closure].
    set (F := length (v_frames s1)). set (i := length (v_frames s2)). set (W1 := W ++ [Wf F (map snd ls) true]).
    assert (S1 : sim W1 (push_frame m args (Some c1) s1) (push_frame m args (Some c2) s2)) by (apply sim_push; eauto).
    assert (Ha : at_ M (F :: stk1) (i :: stk2) m F ((true, Level [ls] (t_block_self :: ps)) :: L) i W1
                   (push_frame m args (Some c1) s1) (push_frame m args (Some c2) s2)).
    { assert (Qn : nth_error W1 i = Some (Wf F (map snd ls) true)) by (unfold W1, i; rewrite <- Hl; apply nth_last).
      assert (QW : forall j y, nth_error W j = Some y -> nth_error W1 j = Some y).
      { intros j y Hy. unfold W1. rewrite nth_error_app1; auto. apply nth_error_Some. congruence. }
      split; [auto|split; [|split]].
      - constructor; [eauto|]. eapply Forall2_imp; [|exact K]. intros a b (y & Hy & Ey). exists y. auto.
      - cbn [scoped]. exists (Wf F (map snd ls) true), (Frame m args [] (Some c2) true). unfold i at 2. cbn. rewrite nth_last, app_nil_r. repeat split; auto using incl_refl.
        destruct L as [|q L']; [contradiction|]. exists c2. split; auto. eapply scoped_keeps; [exact QW|apply keeps_app|exact Hsc].
      - eauto. }
    eapply E_bind0.
    + change (add_level ps ls (activations L)) with (activations ((true, Level [ls] (t_block_self :: ps)) :: L)).
      apply (body_sim P M Hblind (ms_fields ms) _ _ (F :: stk1) (i :: stk2) (Hcall (F :: stk1) (i :: stk2)) m F ms); auto.
      * apply Forall_forall. intros e _. apply eval_sim; auto.
      * intros e _. apply eval_sim; auto.
      * apply plain_all_of; auto.
      * apply lex_ok_own; auto.
      * eapply lex_of_inside; eauto.
      * eapply fresh_new; eauto.
    + intros v W' t1 t2 [_ N]. eapply R_retn. split; eauto. apply grows_refl.
  - destruct (nodup_app _ _ T1) as (N1 & N2 & N3).
    apply (activation_sim W s1 s2 m args None None (map snd (ms_locals ms)) (body_ids (ms_body ms) (ms_ret ms))); auto.
    unfold source_body, msg_body. rewrite Em.
    set (F := length (v_frames s1)). set (i := length (v_frames s2)). set (W1 := W ++ [Wf F (map snd (ms_locals ms)) true]).
    assert (S1 : sim W1 (push_frame m args None s1) (push_frame m args None s2)) by (apply sim_push; eauto).
    assert (Qn : nth_error W1 i = Some (Wf F (map snd (ms_locals ms)) true)) by (unfold W1, i; rewrite <- Hl; apply nth_last).
    assert (Ha : at_ M (F :: stk1) (i :: stk2) m F (lex_env ms) i W1 (push_frame m args None s1) (push_frame m args None s2)).
    { assert (QW : forall j y, nth_error W j = Some y -> nth_error W1 j = Some y).
      { intros j y Hy. unfold W1. rewrite nth_error_app1; auto. apply nth_error_Some. congruence. }
      split; [auto|split; [|split]].
      - constructor; [eauto|]. eapply Forall2_imp; [|exact K]. intros a b (y & Hy & Ey). exists y. auto.
      - unfold lex_env. cbn [scoped]. exists (Wf F (map snd (ms_locals ms)) true), (Frame m args [] None true). unfold i at 2. cbn. rewrite nth_last, app_nil_r. repeat split; auto using incl_refl.
      - eauto. }
    change (ms_env ms) with (activations (lex_env ms)).
    apply (method_sim P M Hblind Hhon (ms_fields ms) _ _ (F :: stk1) (i :: stk2) (Hcall (F :: stk1) (i :: stk2)) m F ms Em Hlab); auto.
    + apply plain_all_of; auto.
    + reflexivity.
    + unfold lex_of. apply incl_refl.
    + intros x Hx. rewrite Qn in Hx. injection Hx. intros <-. reflexivity.
    + eapply fresh_new; eauto.
Qed.
Lemma sim_start st : no_blocks st -> sim [] (Vm st []) (Vm st []).
Proof.
  intros H. constructor; cbn; auto; try (intros; destruct i; discriminate).
  - apply nth_Forall2. intros i. destruct (nth_error (s_objs st) i) as [o|] eqn:Eo; auto. destruct o; cbn; auto. exfalso. eapply H; eauto.
  - intros F f1 d Hf. destruct F; discriminate.
Qed.
End Call.
