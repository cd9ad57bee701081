(** What the generator emits for an expression computes the value of the expression. *)
From Coq Require Import ZArith Bool String Ascii List Lia.
From Verif Require Import Base LexModel ParseModel BcModel BcInterp BcSpec BcCode BcSim BcEval BcMono BcAdapt BcScope BcEmit BcInl BcRep.
Import ListNotations.
Open Scope nat_scope.
Open Scope list_scope.

(** Sequences of emitted operations, newest first. *)
Record seqs (g g' : mg) (ops : list oper) : Prop := {
  q_bytes : g_bytes g' = g_bytes g ++ obytes ops;
  q_lits : exists x, g_lits g' = g_lits g ++ x;
  q_last : forall tl, g_last g = firstn 4 (map o_bc tl ++ no_last) ->
           g_last g' = firstn 4 (map o_bc (ops ++ tl) ++ no_last);
  q_loops : g_loops g' = g_loops g;
  q_max : (g_max g <= g_max g')%Z;
  q_typ : forall h h' p, typ (opcode ops) h = Some (h', p) -> (Z.of_nat h <= g_cur g <= g_max g)%Z ->
          (Z.of_nat h' <= g_cur g' <= g_max g')%Z /\ (Z.of_nat p <= g_max g')%Z }.
Lemma seqs_nil g : seqs g g [].
Proof.
  split; auto; try lia.
  - unfold obytes; simpl; rewrite app_nil_r; auto.
  - exists []. rewrite app_nil_r; auto.
  - intros h h' p H. unfold opcode in H. cbn [rev map typ] in H. inversion H; subst. lia.
Qed.
Lemma seqs_trans g g1 g2 a b : seqs g g1 a -> seqs g1 g2 b -> seqs g g2 (b ++ a).
Proof.
  intros [A1 (x & A2) A3 A4 A5 A6] [B1 (y & B2) B3 B4 B5 B6]. split; try congruence; try lia.
  - rewrite B1, A1, obytes_app, app_assoc. auto.
  - exists (x ++ y). rewrite B2, A2, app_assoc. auto.
  - intros tl H. rewrite <- app_assoc. apply B3, A3, H.
  - intros h h' p H Hc. rewrite opcode_app in H. apply typ_split in H. destruct H as (h1 & p1 & r & H1 & H2 & ->).
    destruct (A6 _ _ _ H1 Hc) as [C1 C2]. destruct (B6 _ _ _ H2 C1) as [C3 C4]. lia.
Qed.
Lemma emits_seqs fields C F A g g' o b bo : emits fields C F A g g' o b bo -> seqs g g' [(o, b, bo)].
Proof.
  intros [A1 A2 A3 A4 A5 A6 A7 A8]. split; auto; try lia.
  - rewrite A2. unfold obytes; simpl. rewrite app_nil_r; auto.
  - intros tl H. rewrite A4, H, firstn4. change (map o_bc ([(o, b, bo)] ++ tl) ++ no_last) with ([b] ++ (map o_bc tl ++ no_last)).
    change (b :: ?l) with ([b] ++ l). apply firstn_firstn_app.
  - intros h h' p H Hc. change (opcode [(o, b, bo)]) with [IOp o] in H. pose proof (typ_op _ _ _ _ H) as Ho.
    rewrite (typ_one _ _ _ Ho) in H. inversion H; subst. specialize (A8 _ _ Ho). lia.
Qed.
Lemma seqs_lits g g' l : (exists x, l = g_lits g ++ x) -> g' = with_lits l g -> seqs g g' [].
Proof.
  intros Hx ->. split; auto; simpl; try lia.
  - unfold obytes; simpl; rewrite app_nil_r; auto.
  - intros h h' p H. unfold opcode in H. cbn [rev map typ] in H. inversion H; subst. lia.
Qed.

Section Gen.
Variable ce : cenv.
Notation fields := (ce_fields ce).
Notation enc_op := (enc_op fields).
Notation enc := (enc fields).
Notation emits := (emits fields).
Notation grows := (grows fields).
Notation rep := (rep fields).
Notation base := (base fields).

Lemma rep_seqs scs scs' g g' c0 tl h h' p ops : rep scs g c0 tl h -> seqs g g' ops ->
  Forall (fun x => enc_op (cx_of scs') (g_lits g') (A_of scs') (o_op x) (o_bc x) (o_bs x)) ops -> scs_le scs scs' ->
  typ (opcode ops) h = Some (h', p) -> Forall (fun x => op_noret (o_op x) = true /\ inner_op x) ops ->
  rep scs' g' c0 (ops ++ tl) h'.
Proof.
  intros [(bs0 & P & H1 & H1') H2 H3 (q & H4 & H4') H5 H6 H7] [G1 G2 G3 G4 G5 G6] He Hs Ht Ho.
  destruct (G6 _ _ _ Ht H5) as [C1 C2].
  assert (Ec : code c0 (ops ++ tl) = code c0 tl ++ opcode ops) by (unfold code; rewrite opcode_app, app_assoc; auto).
  split; auto.
  - exists bs0, P. rewrite G4, G1, H1', obytes_app, app_assoc. split; auto.
    eapply enc_mono; eauto using cx_of_le, A_of_le, lits_le_ex.
  - apply Forall_app. split; auto. eapply Forall_impl; [|exact H2]. intros x Hx.
    eapply enc_op_mono; [exact Hx|..]; eauto using cx_of_le, A_of_le, lits_le_ex.
  - exists (Nat.max q p). rewrite Ec, typ_app, H4. cbn [hseq]. rewrite Ht. split; auto. lia.
  - rewrite (scs_le_length _ _ Hs). intros Hl. rewrite Ec, noret_app, H6 by auto. cbn [andb].
    unfold noret, opcode. apply forallb_forall. intros i Hi. apply in_map_iff in Hi. destruct Hi as (x & <- & Hx).
    apply in_rev in Hx. rewrite Forall_forall in Ho. apply Ho. auto.
  - rewrite (scs_le_length _ _ Hs). intros Hl. apply Forall_app. split; auto.
    eapply Forall_impl; [|exact Ho]. intros x Hx. apply Hx.
Qed.

(** * Literals *)
Definition np (L F : list literal) : Prop := forall i l, nth_error L i = Some l -> l <> LS placeholder -> nth_error F i = Some l.
Definition lit_op (x : oper) : Prop := match o_op x with OLit _ | OGlob _ | OSend _ => True | _ => False end.
Fixpoint gen_elems (i : nat) (ls : list slit) (c : ctx) : res ctx :=
  match ls with
  | [] => Ok c
  | l :: ls =>
      let g := emit_push_constant (LV (VInt (Z.of_nat i))) (fst c) in
      c <- gen_lit ce l (g, snd c) ;;
      gen_elems (S i) ls (emit_send t_at_put (fst c), snd c)
  end.
Lemma gen_lit_array ls c : gen_lit ce (SA ls) c =
  (let '(g, scs) := c in
      p <- add_literal (LS placeholder) g ;;
      let '(idx, g) := p in
      let '(g, scs) := emit_push_global ce t_array (g, scs) in
      let g := emit2 B_push_constant idx 1 g in
      let g := emit_send t_new g in
      c <- gen_elems 1 ls (g, scs) ;;
      let '(g, scs) := c in
      g <- update_literal (LS placeholder) idx (LV (VInt (Z.of_nat (length ls)))) g ;;
      Ok (g, scs)).
Proof. reflexivity. Qed.
Definition eval_elems {S X} (μ : machine S X) : nat -> list slit -> value -> S -> BcInterp.out S X value :=
  fix go (i : nat) (ls : list slit) (arr : value) (s : S) : BcInterp.out S X value :=
         match ls with
         | [] => Done arr s
         | l :: ls => bind (eval_lit μ l s) (fun v s =>
                      bind (m_send μ t_at_put [arr; VInt (Z.of_nat i); v] s) (fun arr s =>
                      go (Datatypes.S i) ls arr s))
         end.
Lemma eval_lit_array {S X} (μ : machine S X) ls s : eval_lit μ (SA ls) s =
      bind (m_glob μ t_array s) (fun a s =>
      bind (m_send μ t_new [a; VInt (Z.of_nat (length ls))] s) (fun arr s => eval_elems μ 1 ls arr s)).
Proof. reflexivity. Qed.
Section SlitInd.
Variable P : slit -> Prop.
Hypothesis H1 : forall l, P (SL l).
Hypothesis H2 : forall ls, Forall P ls -> P (SA ls).
Fixpoint slit_ind' (l : slit) : P l :=
  match l with
  | SL l => H1 l
  | SA ls => H2 ls ((fix go (c : list slit) : Forall P c :=
      match c with [] => Forall_nil P | i :: c => Forall_cons i (slit_ind' i) (go c) end) ls)
  end.
End SlitInd.

Record lit_res (l : slit) (g : mg) (scs : list scope) (g' : mg) (scs' : list scope) (ops : list oper) : Prop := {
  l_seq : seqs g g' ops;
  l_le : scs_le scs scs';
  l_outs : outs_ok scs -> outs_ok scs';
  l_enc : forall F C A, np (g_lits g') F -> Forall (fun x => enc_op C F A (o_op x) (o_bc x) (o_bs x)) ops;
  l_sem : computes (opcode ops) (fun S X μ n s => eval_lit μ l s);
  l_typ : exists p, typ (opcode ops) 0 = Some (1, p);
  l_ops : Forall lit_op ops;
  l_const : forall x v, ops = [x] -> o_op x = OLit v -> g_lits g = [] -> g_lits g' = [] \/ exists l, g_lits g' = [l] /\ lit_value l = Some v }.
Definition lit_ok (l : slit) : Prop := ok_lit l = true -> forall g scs g' scs',
  gen_lit ce l (g, scs) = Ok (g', scs') -> exists ops, lit_res l g scs g' scs' ops.

Lemma np_keeps L F g l : np L F -> (exists x, L = g_lits g ++ x) -> l <> LS placeholder -> keeps F g l.
Proof. intros H (x & ->) Hl i Hi. apply H; auto. apply nth_app_some. auto. Qed.
Lemma push_constant_lits l g : exists x, g_lits (emit_push_constant l g) = g_lits g ++ x /\
  (g_lits g = [] -> x = [] \/ x = [l]).
Proof.
  assert (N : exists x, g_lits g = g_lits g ++ x /\ (g_lits g = [] -> x = [] \/ x = [l])) by (exists []; rewrite app_nil_r; auto).
  assert (K : exists x, g_lits (let '(i, g) := add_literal_if_absent l g in
      match i with
      | 0 => emit1 B_push_constant_0 1 g
      | 1 => emit1 B_push_constant_1 1 g
      | 2 => emit1 B_push_constant_2 1 g
      | _ => emit2 B_push_constant i 1 g
      end) = g_lits g ++ x /\ (g_lits g = [] -> x = [] \/ x = [l])).
  { unfold add_literal_if_absent. destruct (find_lit l (g_lits g)) as [i|] eqn:E.
    - exists []. rewrite app_nil_r. split; auto. destruct i as [|[|[|i]]]; auto.
    - exists [l]. split; auto. destruct (length (g_lits g)) as [|[|[|i]]]; reflexivity. }
  unfold emit_push_constant. destruct l as [v|t|m]; auto. destruct v as [| | |z|z|f|s|s|n]; auto.
  destruct z as [|[p|p|]|p]; auto.
Qed.
Lemma lit_value_np l v : lit_value l = Some v -> ok_lit (SL l) = true -> l <> LS placeholder.
Proof.
  intros _ H E. subst l. cbn [ok_lit] in H. destruct (text_eqb placeholder placeholder) eqn:E; [discriminate|].
  pose proof (text_eqb_eq placeholder placeholder) as K. destruct K as [_ K]. rewrite K in E; auto; discriminate.
Qed.
Lemma lit_ok_SL l : lit_ok (SL l).
Proof.
  intros Hok g scs g' scs' H. cbn [gen_lit fst snd] in H.
  assert (Hv : exists v, lit_value l = Some v) by (destruct l; cbn [lit_value]; eauto; discriminate).
  destruct Hv as (v & Hv). injection H as <- <-.
  pose proof (lit_value_np _ _ Hv Hok) as Hnp.
  destruct (emits_const fields [] (g_lits (emit_push_constant l g)) none g l v Hv) as (b & bo & He & Hb); [apply keeps_refl|].
  exists [(OLit v, b, bo)]. split.
  - eapply emits_seqs; eauto.
  - apply scs_le_refl.
  - auto.
  - intros F C A HF. constructor; auto. cbn [o_op o_bc o_bs fst snd].
    destruct (emits_const fields C F A g l v Hv) as (b' & bo' & He' & _).
    { eapply np_keeps; eauto. exists []. rewrite app_nil_r. auto. }
    pose proof (em_bytes _ _ _ _ _ _ _ _ _ He) as B1. pose proof (em_bytes _ _ _ _ _ _ _ _ _ He') as B2.
    rewrite B1 in B2. apply app_inv_head in B2. subst bo'.
    pose proof (em_last _ _ _ _ _ _ _ _ _ He) as L1. pose proof (em_last _ _ _ _ _ _ _ _ _ He') as L2.
    rewrite L1 in L2. injection L2 as ->. apply He'.
  - intros S X μ _ n st s. cbn [opcode rev map app o_op fst]. rewrite exec_op1. cbn [exec_op eval_lit]. rewrite Hv. reflexivity.
  - eexists. cbn [opcode rev map app o_op fst]. reflexivity.
  - constructor; [exact Logic.I|constructor].
  - intros x v' E Ex Hg. injection E as <-. cbn [o_op fst] in Ex. injection Ex as <-.
    destruct (push_constant_lits l g) as (x & E1 & E2). rewrite E1, Hg. destruct (E2 Hg) as [-> | ->]; simpl; eauto.
Qed.

Lemma emits_same C F A C' F' A' g g' o b bo o' b' bo' : emits C F A g g' o b bo -> emits C' F' A' g g' o' b' bo' -> b' = b /\ bo' = bo.
Proof.
  intros He He'.
  pose proof (em_bytes _ _ _ _ _ _ _ _ _ He) as B1. pose proof (em_bytes _ _ _ _ _ _ _ _ _ He') as B2.
  rewrite B1 in B2. apply app_inv_head in B2.
  pose proof (em_last _ _ _ _ _ _ _ _ _ He) as L1. pose proof (em_last _ _ _ _ _ _ _ _ _ He') as L2.
  rewrite L1 in L2. injection L2 as ->. auto.
Qed.
Lemma np_app L x F : np (L ++ x) F -> np L F.
Proof. intros H i l Hi Hl. apply H; auto. apply nth_app_some; auto. Qed.
Lemma np_le L L' F : np L' F -> (exists x, L' = L ++ x) -> np L F.
Proof. intros H (x & ->). eapply np_app; eauto. Qed.
(** One literal, send or global. *)
Lemma seq_const l v g : lit_value l = Some v -> l <> LS placeholder ->
  exists b bo, seqs g (emit_push_constant l g) [(OLit v, b, bo)] /\
    forall F C A, np (g_lits (emit_push_constant l g)) F -> enc_op C F A (OLit v) b bo.
Proof.
  intros Hv Hnp. destruct (emits_const fields [] (g_lits (emit_push_constant l g)) none g l v Hv) as (b & bo & He & Hb); [apply keeps_refl|].
  exists b, bo. split; [eapply emits_seqs; eauto|]. intros F C A HF.
  destruct (emits_const fields C F A g l v Hv) as (b' & bo' & He' & _).
  { eapply np_keeps; eauto. exists []. rewrite app_nil_r. auto. }
  destruct (emits_same _ _ _ _ _ _ _ _ _ _ _ _ _ _ He He') as [-> ->]. apply He'.
Qed.
Lemma seq_send t g : t <> placeholder ->
  exists b bo, seqs g (emit_send t g) [(OSend t, b, bo)] /\
    forall F C A, np (g_lits (emit_send t g)) F -> enc_op C F A (OSend t) b bo.
Proof.
  intros Hnp. destruct (emits_send fields [] (g_lits (emit_send t g)) none g t) as (bo & He); [apply keeps_refl|].
  do 2 eexists. split; [eapply emits_seqs; eauto|]. intros F C A HF.
  destruct (emits_send fields C F A g t) as (bo' & He').
  { eapply np_keeps; eauto. exists []. rewrite app_nil_r. auto. congruence. }
  destruct (emits_same _ _ _ _ _ _ _ _ _ _ _ _ _ _ He He') as [_ ->]. apply He'.
Qed.
Lemma seq_glob t g scs g' scs' : t <> placeholder -> plain_global t = true -> emit_push_global ce t (g, scs) = (g', scs') ->
  scs_le scs scs' /\ (outs_ok scs -> outs_ok scs') /\
  exists b bo, seqs g g' [(OGlob t, b, bo)] /\ forall F C A, np (g_lits g') F -> enc_op C F A (OGlob t) b bo.
Proof.
  intros Hnp Hp E.
  assert (Eg : glob_op t = OGlob t).
  { unfold glob_op. unfold plain_global in Hp. destruct (text_eqb t t_nil), (text_eqb t t_true), (text_eqb t t_false); try discriminate; auto. }
  destruct (emits_global fields ce [] (g_lits g') none g scs t g' scs' E) as [(b & bo & He & Hb) Hs].
  { intros l _. apply keeps_refl. }
  rewrite Eg in He.
  split; [destruct Hs as [-> | ->]; [apply scs_le_refl|apply mark_self_le]|].
  split; [destruct Hs as [-> | ->]; auto using outs_ok_mark_self|].
  exists b, bo. split; [eapply emits_seqs; eauto|]. intros F C A HF.
  destruct (emits_global fields ce C F A g scs t g' scs' E) as [(b' & bo' & He' & _) _].
  { intros l Hl. eapply np_keeps; eauto. exists []. rewrite app_nil_r. auto.
    destruct Hl as [-> | [-> | ->]]; congruence. }
  rewrite Eg in He'. destruct (emits_same _ _ _ _ _ _ _ _ _ _ _ _ _ _ He He') as [-> ->]. apply He'.
Qed.
Lemma at_put_np : t_at_put <> placeholder. Proof. discriminate. Qed.
Lemma new_np : t_new <> placeholder. Proof. discriminate. Qed.
Lemma array_np : t_array <> placeholder. Proof. discriminate. Qed.
Lemma at_put_args : nargs t_at_put = 3. Proof. reflexivity. Qed.
Lemma new_args : nargs t_new = 2. Proof. reflexivity. Qed.

Record elems_res (i : nat) (ls : list slit) (g : mg) (scs : list scope) (g' : mg) (scs' : list scope) (ops : list oper) : Prop := {
  e_seq : seqs g g' ops;
  e_le : scs_le scs scs';
  e_outs : outs_ok scs -> outs_ok scs';
  e_enc : forall F C A, np (g_lits g') F -> Forall (fun x => enc_op C F A (o_op x) (o_bc x) (o_bs x)) ops;
  e_sem : forall S X (μ : machine S X), lawful μ -> forall n arr st s,
    exec μ (opcode ops) n (arr :: st) s = bind (eval_elems μ i ls arr s) (fun v s => Done (v :: st) s);
  e_typ : exists p, typ (opcode ops) 1 = Some (1, p);
  e_ops : Forall lit_op ops }.
Lemma elems_ok ls : Forall lit_ok ls -> forallb ok_lit ls = true -> forall i g scs g' scs',
  gen_elems i ls (g, scs) = Ok (g', scs') -> exists ops, elems_res i ls g scs g' scs' ops.
Proof.
  induction 1 as [|l ls Hl _ IH]; intros Hok i g scs g' scs' H; cbn [gen_elems] in H.
  - injection H as <- <-. exists []. split; auto using seqs_nil, scs_le_refl.
    eexists. reflexivity.
  - cbn [forallb] in Hok. apply andb_true_iff in Hok. destruct Hok as [Hok1 Hok2]. cbn [fst snd] in H.
    set (g1 := emit_push_constant (LV (VInt (Z.of_nat i))) g) in *.
    destruct (gen_lit ce l (g1, scs)) as [[g2 scs2]|] eqn:E2; [|discriminate]. cbn [Base.bind fst snd] in H.
    destruct (seq_const (LV (VInt (Z.of_nat i))) (VInt (Z.of_nat i)) g eq_refl) as (b1 & bo1 & S1 & F1); [discriminate|]. fold g1 in S1, F1.
    destruct (Hl Hok1 _ _ _ _ E2) as (ops2 & [A1 A2 A3 A4 A5 (p2 & A6) A7 _]).
    destruct (seq_send t_at_put g2 at_put_np) as (b3 & bo3 & S3 & F3). set (g3 := emit_send t_at_put g2) in *.
    destruct (IH Hok2 _ _ _ _ _ H) as (ops4 & [B1 B2 B3 B4 B5 (p4 & B6) B7]).
    exists (ops4 ++ [(OSend t_at_put, b3, bo3)] ++ ops2 ++ [(OLit (VInt (Z.of_nat i)), b1, bo1)]).
    pose proof (q_lits _ _ _ B1) as K4. pose proof (q_lits _ _ _ S3) as K3. pose proof (q_lits _ _ _ A1) as K2.
    split.
    + eapply seqs_trans; [eapply seqs_trans; [eapply seqs_trans|]|]; eauto.
    + eapply scs_le_trans; eauto.
    + auto.
    + intros F C A HF. assert (N3 : np (g_lits g3) F) by (eapply np_le; eauto).
      assert (N2 : np (g_lits g2) F) by (eapply np_le; eauto). assert (N1 : np (g_lits g1) F) by (eapply np_le; eauto).
      apply Forall_app; split; [auto|]. constructor; [apply F3; auto|]. apply Forall_app; split; [auto|]. constructor; [apply F1; auto|constructor].
    + intros S X μ Hμ n arr st s. rewrite !opcode_app, <- !app_assoc, !exec_app.
      change (opcode [(OLit (VInt (Z.of_nat i)), b1, bo1)]) with [IOp (OLit (VInt (Z.of_nat i)))].
      rewrite exec_op1. cbn [exec_op bind]. rewrite exec_app, (A5 _ _ _ Hμ). cbn [eval_elems]. rewrite !bind_assoc. apply bind_ext. intros v s1.
      cbn [bind]. rewrite exec_app. change (opcode [(OSend t_at_put, b3, bo3)]) with [IOp (OSend t_at_put)]. rewrite exec_op1.
      cbn [exec_op]. unfold popn. rewrite at_put_args. cbn [length Nat.leb firstn rev app skipn].
      rewrite !bind_assoc. apply bind_ext. intros w s2. cbn [bind]. apply B5; auto.
    + rewrite !opcode_app, <- !app_assoc. eexists. rewrite typ_app.
      change (typ (opcode [(OLit (VInt (Z.of_nat i)), b1, bo1)]) 1) with (Some (2, 2)). cbn [hseq].
      rewrite typ_app, (typ_shift 2 _ _ _ _ A6 : typ _ 2 = _). cbn [hseq Nat.add]. rewrite typ_app.
      change (opcode [(OSend t_at_put, b3, bo3)]) with [IOp (OSend t_at_put)].
      rewrite (typ_one (OSend t_at_put) 3 1) by reflexivity. cbn [hseq]. rewrite B6. reflexivity.
    + apply Forall_app; split; [auto|]. constructor; [exact Logic.I|]. apply Forall_app; split; [auto|]. constructor; [exact Logic.I|constructor].
Qed.
Lemma set_lit_app a x l n : set_lit (a ++ x :: l) (length a) n = a ++ n :: l.
Proof. induction a; simpl; congruence. Qed.
Lemma lit_ok_all l : lit_ok l.
Proof.
  induction l as [l|ls IH] using slit_ind'; [apply lit_ok_SL|].
  intros Hok g scs g' scs' H. rewrite gen_lit_array in H. cbn [ok_lit] in Hok.
  unfold add_literal in H. destruct (_ <? 128) in H; [|discriminate]. cbn [Base.bind] in H.
  set (idx := length (g_lits g)) in *. set (g1 := with_lits (g_lits g ++ [LS placeholder]) g) in *.
  destruct (emit_push_global ce t_array (g1, scs)) as [g2 scs2] eqn:E2.
  set (n := LV (VInt (Z.of_nat (length ls)))) in *.
  set (g3 := emit2 B_push_constant idx 1 g2) in *. set (g4 := emit_send t_new g3) in *.
  destruct (gen_elems 1 ls (g4, scs2)) as [[g5 scs5]|] eqn:E5; [|discriminate]. cbn [Base.bind] in H.
  destruct (update_literal (LS placeholder) idx n g5) as [g6|] eqn:E6; [|discriminate]. cbn [Base.bind] in H. injection H as <- <-.
  assert (S1 : seqs g g1 []) by (eapply seqs_lits; [eexists; reflexivity|reflexivity]).
  destruct (seq_glob t_array g1 scs g2 scs2 array_np eq_refl E2) as (L2 & O2 & b2 & bo2 & S2 & F2).
  assert (S3 : seqs g2 g3 [(OLit (VInt (Z.of_nat (length ls))), B_push_constant, [num B_push_constant; idx])]).
  { eapply (emits_seqs fields [] (repeat n (S idx)) none). apply emits2; [|apply eff1].
    apply (E_const fields _ _ _ _ idx n); [|reflexivity]. rewrite nth_error_repeat by lia. reflexivity. }
  destruct (seq_send t_new g3 new_np) as (b4 & bo4 & S4 & F4). fold g4 in S4, F4.
  destruct (elems_ok ls IH Hok _ _ _ _ _ E5) as (ops5 & [B1 B2 B3 B4 B5 (p5 & B6) B7]).
  pose proof (q_lits _ _ _ B1) as K5. pose proof (q_lits _ _ _ S4) as K4. pose proof (q_lits _ _ _ S3) as K3.
  pose proof (q_lits _ _ _ S2) as K2.
  assert (K : exists x, g_lits g5 = g_lits g ++ LS placeholder :: x).
  { destruct K5 as (x5 & ->), K4 as (x4 & ->), K3 as (x3 & ->), K2 as (x2 & ->). unfold g1. cbn [with_lits g_lits].
    rewrite <- !app_assoc. eexists. reflexivity. }
  destruct K as (x & K). unfold update_literal in E6. rewrite K in E6.
  rewrite nth_error_app2, Nat.sub_diag in E6 by (unfold idx; lia). cbn [nth_error] in E6.
  destruct (same_lit _ _) in E6; [|discriminate]. unfold idx in E6 at 1. rewrite set_lit_app in E6. injection E6 as <-.
  set (ops := ops5 ++ [(OSend t_new, b4, bo4)] ++ [(OLit (VInt (Z.of_nat (length ls))), B_push_constant, [num B_push_constant; idx])] ++ [(OGlob t_array, b2, bo2)]).
  assert (SS : seqs g g5 (ops ++ [])).
  { eapply seqs_trans; [exact S1|]. unfold ops. eapply seqs_trans; [eapply seqs_trans; [eapply seqs_trans|]|]; eauto. }
  rewrite app_nil_r in SS.
  exists ops. split.
  - destruct SS as [Q1 Q2 Q3 Q4 Q5 Q6]. split; auto. eexists. reflexivity.
  - eapply scs_le_trans; eauto.
  - auto.
  - intros F C A HF. cbn [with_lits g_lits] in HF.
    assert (N5 : np (g_lits g5) F).
    { intros i l Hi Hl. rewrite K in Hi. destruct (Nat.eq_dec i idx) as [-> | Hne].
      - rewrite nth_error_app2, Nat.sub_diag in Hi by (unfold idx; lia). cbn [nth_error] in Hi. congruence.
      - apply HF; auto. destruct (Nat.lt_ge_cases i idx).
        + rewrite nth_error_app1 in * by auto. auto.
        + rewrite nth_error_app2 in * by auto. destruct (i - length (g_lits g)) eqn:Ei; [unfold idx in *; lia|]. exact Hi. }
    assert (N4 : np (g_lits g4) F) by (eapply np_le; eauto).
    assert (N3 : np (g_lits g3) F) by (eapply np_le; eauto). assert (N2 : np (g_lits g2) F) by (eapply np_le; eauto).
    unfold ops. apply Forall_app; split; [auto|]. constructor; [apply F4; auto|]. constructor; [|constructor; [apply F2; auto|constructor]].
    cbn [o_op o_bc o_bs fst snd]. apply (E_const fields C F A _ idx n); [|reflexivity].
    apply HF; [|discriminate]. rewrite nth_error_app2, Nat.sub_diag by (unfold idx; lia). reflexivity.
  - intros S X μ Hμ k st s. unfold ops. rewrite !opcode_app, <- !app_assoc, !exec_app. rewrite eval_lit_array.
    change (opcode [(OGlob t_array, b2, bo2)]) with [IOp (OGlob t_array)]. rewrite exec_op1. cbn [exec_op].
    rewrite !bind_assoc. apply bind_ext. intros a s1. cbn [bind]. rewrite !exec_app.
    change (opcode [(OLit ?v, B_push_constant, ?l)]) with [IOp (OLit v)]. rewrite exec_op1. cbn [exec_op bind].
    rewrite exec_app. change (opcode [(OSend t_new, b4, bo4)]) with [IOp (OSend t_new)]. rewrite exec_op1.
    cbn [exec_op]. unfold popn. rewrite new_args. cbn [length Nat.leb firstn rev app skipn].
    rewrite !bind_assoc. apply bind_ext. intros arr s2. cbn [bind]. apply B5; auto.
  - unfold ops. rewrite !opcode_app, <- !app_assoc. eexists. rewrite typ_app.
    change (typ (opcode [(OGlob t_array, b2, bo2)]) 0) with (Some (1, 1)). cbn [hseq]. rewrite typ_app.
    change (opcode [(OLit ?v, B_push_constant, ?l)]) with [IOp (OLit v)]. rewrite (typ_one _ 1 2) by reflexivity. cbn [hseq].
    rewrite typ_app. change (opcode [(OSend t_new, b4, bo4)]) with [IOp (OSend t_new)].
    rewrite (typ_one (OSend t_new) 2 1) by reflexivity. cbn [hseq]. rewrite B6. reflexivity.
  - unfold ops. apply Forall_app; split; [auto|]. repeat (constructor; [exact Logic.I|]). constructor.
  - intros y v Ey. exfalso. apply (f_equal (@length oper)) in Ey. unfold ops in Ey. rewrite !app_length in Ey. simpl in Ey. lia.
Qed.
End Gen.
