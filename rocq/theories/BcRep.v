(** The state of a generation context while it compiles: the code it stands for, and what the
    peephole optimisations may look at. *)
From Coq Require Import ZArith Bool String Ascii List Lia.
From Verif Require Import Base LexModel ParseModel BcModel BcInterp BcSpec BcCode BcSim BcEval BcMono BcAdapt BcScope BcEmit BcInl.
Import ListNotations.
Open Scope nat_scope.
Open Scope list_scope.

(** An operation, its bytecode and its bytes. *)
Definition oper := (op * bc * list nat)%type.
Definition o_op (x : oper) : op := fst (fst x).
Definition o_bc (x : oper) : bc := snd (fst x).
Definition o_bs (x : oper) : list nat := snd x.
Definition opcode (tl : list oper) : list item := map (fun x => IOp (o_op x)) (rev tl).
Definition obytes (tl : list oper) : list nat := concat (map o_bs (rev tl)).
Definition code (c0 : list item) (tl : list oper) : list item := c0 ++ opcode tl.

Lemma opcode_cons x tl : opcode (x :: tl) = opcode tl ++ [IOp (o_op x)].
Proof. unfold opcode. simpl. rewrite map_app. reflexivity. Qed.
Lemma obytes_cons x tl : obytes (x :: tl) = obytes tl ++ o_bs x.
Proof. unfold obytes. simpl. rewrite map_app, concat_app. simpl. rewrite app_nil_r. reflexivity. Qed.
Lemma code_cons c0 x tl : code c0 (x :: tl) = code c0 tl ++ [IOp (o_op x)].
Proof. unfold code. rewrite opcode_cons, app_assoc. reflexivity. Qed.
Lemma code_nil c0 : code c0 [] = c0.
Proof. apply app_nil_r. Qed.
Lemma opcode_app a b : opcode (a ++ b) = opcode b ++ opcode a.
Proof. unfold opcode. rewrite rev_app_distr, map_app. reflexivity. Qed.
Lemma obytes_app a b : obytes (a ++ b) = obytes b ++ obytes a.
Proof. unfold obytes. rewrite rev_app_distr, map_app, concat_app. reflexivity. Qed.

Section Rep.
Variable fields : list text.
Notation enc_op := (enc_op fields).
Notation enc := (enc fields).
Notation emits := (emits fields).
Notation grows := (grows fields).
Notation computes := (computes).

(** Code without what the peepholes look at. *)
Record base (scs : list scope) (g : mg) (c : list item) (h : nat) : Prop := {
  b_enc : exists P, enc (cx_of scs) (g_lits g) (A_of scs) 0 c (g_bytes g) (g_loops g) P;
  b_typ : exists p, typ c 0 = Some (h, p) /\ (Z.of_nat p <= g_max g)%Z;
  b_cur : (Z.of_nat h <= g_cur g <= g_max g)%Z;
  b_nr : 2 <= length scs -> noret c = true }.
Definition inner_op (x : oper) : Prop := match o_op x with OFld 0 _ => False | _ => True end.
Record rep (scs : list scope) (g : mg) (c0 : list item) (tl : list oper) (h : nat) : Prop := {
  r_enc : exists bs0 P, enc (cx_of scs) (g_lits g) (A_of scs) 0 c0 bs0 (g_loops g) P /\
          g_bytes g = bs0 ++ obytes tl;
  r_tl : Forall (fun x => enc_op (cx_of scs) (g_lits g) (A_of scs) (o_op x) (o_bc x) (o_bs x)) tl;
  r_last : g_last g = firstn 4 (map o_bc tl ++ no_last);
  r_typ : exists p, typ (code c0 tl) 0 = Some (h, p) /\ (Z.of_nat p <= g_max g)%Z;
  r_cur : (Z.of_nat h <= g_cur g <= g_max g)%Z;
  r_nr : 2 <= length scs -> noret (code c0 tl) = true;
  r_fld : 2 <= length scs -> Forall inner_op tl }.

Lemma enc_ops C ls A i tl : Forall (fun x => enc_op C ls A (o_op x) (o_bc x) (o_bs x)) tl ->
  enc C ls A i (opcode tl) (obytes tl) [] [].
Proof.
  intros H. unfold opcode, obytes. apply Forall_rev in H. revert i.
  induction H as [|x l Hx _ IH]; intros i; simpl; [constructor|]. econstructor; eauto.
Qed.
Lemma noret_app a b : noret (a ++ b) = noret a && noret b.
Proof. apply forallb_app. Qed.
Lemma rep_base scs g c0 tl h : rep scs g c0 tl h -> base scs g (code c0 tl) h.
Proof.
  intros [(bs0 & P & H1 & H1') H2 H3 H4 H5 H6 H7]. split; auto.
  exists (P ++ []). rewrite H1'. unfold code. rewrite <- (app_nil_r (g_loops g)).
  eapply enc_app; eauto. apply enc_ops; auto.
Qed.
Lemma base_rep scs g c h : base scs g c h -> g_last g = no_last -> rep scs g c [] h.
Proof.
  intros [(P & H1) H2 H3 H4] Hl. split; rewrite ?code_nil; auto.
  exists (g_bytes g), P. split; auto. unfold obytes; simpl. rewrite app_nil_r. auto.
Qed.
Lemma base_same scs g g' c h : base scs g c h -> g_bytes g' = g_bytes g -> g_lits g' = g_lits g ->
  g_loops g' = g_loops g -> g_cur g' = g_cur g -> g_max g' = g_max g -> base scs g' c h.
Proof. intros [H1 H2 H3 H4] E1 E2 E3 E4 E5. split; rewrite ?E1, ?E2, ?E3, ?E4, ?E5; auto. Qed.
Lemma base_le scs scs' g g' c h : base scs g c h -> scs_le scs scs' -> (exists l, g_lits g' = g_lits g ++ l) ->
  g_bytes g' = g_bytes g -> g_loops g' = g_loops g -> (g_cur g <= g_cur g' <= g_max g')%Z ->
  (g_max g <= g_max g')%Z -> base scs' g' c h.
Proof.
  intros [(P & H1) (p & H2 & H2') H3 H4] Hs Hl E1 E2 E3 E4. split.
  - exists P. rewrite E1, E2. eapply enc_mono; eauto using cx_of_le, A_of_le, lits_le_ex.
  - exists p. split; auto. lia.
  - lia.
  - rewrite (scs_le_length _ _ Hs). auto.
Qed.
Lemma base_grows scs scs' g g' c d bb h h' p : base scs g c h ->
  grows (cx_of scs') (g_lits g') (A_of scs') g g' d bb -> scs_le scs scs' ->
  typ d h = Some (h', p) -> (2 <= length scs -> noret d = true) -> base scs' g' (c ++ d) h'.
Proof.
  intros [(P & H1) (q & H2 & H2') H3 H4] [G1 G2 (L & P2 & G3 & G4) G5 G6 G7] Hs Ht Hn.
  destruct (G7 _ _ _ Ht H3) as [T1 T2]. split.
  - exists (P ++ P2). rewrite G1, G4. eapply enc_app; eauto.
    eapply enc_mono; eauto using cx_of_le, A_of_le, lits_le_ex.
  - exists (Nat.max q p). rewrite typ_app, H2. cbn [hseq]. rewrite Ht. split; auto. lia.
  - split; auto. apply G6. lia.
  - rewrite (scs_le_length _ _ Hs). intros Hl. rewrite noret_app, H4, Hn; auto.
Qed.
Lemma typ_one o h h' : op_ht o h = Some h' -> typ [IOp o] h = Some (h', Nat.max h h').
Proof.
  intros H. cbn [typ]. rewrite typ_item_eq, H. cbn [hseq typ]. f_equal. f_equal. lia.
Qed.
Lemma firstn4 {A} (b : A) l : b :: firstn 3 l = firstn 4 (b :: l).
Proof. reflexivity. Qed.
Lemma firstn_firstn_app {A} n (a l : list A) : firstn n (a ++ firstn n l) = firstn n (a ++ l).
Proof.
  rewrite !firstn_app. f_equal. rewrite firstn_firstn. f_equal. lia.
Qed.
Lemma rep_mono scs scs' g g' c0 tl h : rep scs g c0 tl h -> scs_le scs scs' ->
  (exists l, g_lits g' = g_lits g ++ l) -> g_bytes g' = g_bytes g -> g_loops g' = g_loops g ->
  g_cur g' = g_cur g -> g_max g' = g_max g -> g_last g' = g_last g -> rep scs' g' c0 tl h.
Proof.
  intros [(bs0 & P & H1 & H1') H2 H3 H4 H5 H6 H7] Hs Hl E1 E2 E3 E4 E5. split.
  - exists bs0, P. rewrite E1, E2. split; auto. eapply enc_mono; eauto using cx_of_le, A_of_le, lits_le_ex.
  - eapply Forall_impl; [|exact H2]. intros x Hx. eapply enc_op_mono; [exact Hx|..]; eauto using cx_of_le, A_of_le, lits_le_ex.
  - congruence.
  - rewrite E4. auto.
  - rewrite E3, E4. auto.
  - rewrite (scs_le_length _ _ Hs). auto.
  - rewrite (scs_le_length _ _ Hs). auto.
Qed.
Lemma rep_emit scs scs' g g' c0 tl h h' o b bo : rep scs g c0 tl h ->
  emits (cx_of scs') (g_lits g') (A_of scs') g g' o b bo -> scs_le scs scs' ->
  op_ht o h = Some h' -> (2 <= length scs -> op_noret o = true) ->
  (2 <= length scs -> inner_op (o, b, bo)) -> rep scs' g' c0 ((o, b, bo) :: tl) h'.
Proof.
  intros [(bs0 & P & H1 & H1') H2 H3 (p & H4 & H4') H5 H6 H7] [G1 G2 G3 G4 G5 G6 G7 G8] Hs Ho Hn Hf. split.
  - exists bs0, P. rewrite G6, G2, obytes_cons, H1', app_assoc. split; auto.
    eapply enc_mono; eauto using cx_of_le, A_of_le, lits_le_ex.
  - constructor; auto. eapply Forall_impl; [|exact H2]. intros x Hx.
    eapply enc_op_mono; [exact Hx|..]; eauto using cx_of_le, A_of_le, lits_le_ex.
  - rewrite G4, H3, firstn4. change (map o_bc ((o, b, bo) :: tl) ++ no_last) with ([b] ++ (map o_bc tl ++ no_last)).
    change (b :: ?l) with ([b] ++ l). apply firstn_firstn_app.
  - exists (Nat.max p (Nat.max h h')). rewrite code_cons, typ_app, H4. cbn [hseq]. change (o_op (o, b, bo)) with o. rewrite (typ_one _ _ _ Ho).
    split; auto. specialize (G8 _ _ Ho). lia.
  - specialize (G8 _ _ Ho). lia.
  - rewrite (scs_le_length _ _ Hs). intros Hl. rewrite code_cons, noret_app, H6 by auto.
    unfold noret. cbn [forallb noret_item]. change (o_op (o, b, bo)) with o. rewrite Hn; auto.
  - rewrite (scs_le_length _ _ Hs). intros Hl. constructor; auto.
Qed.
Lemma lastb_nth scs g c0 tl h k : rep scs g c0 tl h -> k < 4 ->
  lastb k g = nth k (map o_bc tl ++ no_last) B_invalid.
Proof.
  intros H Hk. unfold lastb. rewrite (r_last _ _ _ _ _ H).
  destruct tl as [|x0 [|x1 [|x2 [|x3 tl]]]]; do 4 (destruct k as [|k]; [reflexivity|]); lia.
Qed.
Lemma lastb_cons scs g c0 x tl h : rep scs g c0 (x :: tl) h -> lastb 0 g = o_bc x.
Proof. intros H. rewrite (lastb_nth _ _ _ _ _ 0 H) by lia. reflexivity. Qed.
(** A bytecode in the buffer is one that was emitted. *)
Lemma last_split scs g c0 tl h : rep scs g c0 tl h -> lastb 0 g <> B_invalid ->
  exists x tl', tl = x :: tl' /\ o_bc x = lastb 0 g.
Proof.
  intros H Hn. rewrite (lastb_nth _ _ _ _ _ 0 H) in * by lia. destruct tl as [|x tl]; [exfalso; apply Hn; reflexivity|].
  exists x, tl. auto.
Qed.
Lemma last_split2 scs g c0 x tl h : rep scs g c0 (x :: tl) h -> lastb 1 g <> B_invalid ->
  exists y tl', tl = y :: tl' /\ o_bc y = lastb 1 g.
Proof.
  intros H Hn. rewrite (lastb_nth _ _ _ _ _ 1 H) in * by lia. destruct tl as [|y tl]; [exfalso; apply Hn; reflexivity|].
  exists y, tl. auto.
Qed.
Lemma last_split3 scs g c0 x y tl h : rep scs g c0 (x :: y :: tl) h -> lastb 2 g <> B_invalid ->
  exists z tl', tl = z :: tl' /\ o_bc z = lastb 2 g.
Proof.
  intros H Hn. rewrite (lastb_nth _ _ _ _ _ 2 H) in * by lia. destruct tl as [|z tl]; [exfalso; apply Hn; reflexivity|].
  exists z, tl. auto.
Qed.
Lemma rep_cut scs g c0 x tl h : rep scs g c0 (x :: tl) h ->
  exists h1 bs, op_ht (o_op x) h1 = Some h /\ g_bytes g = bs ++ o_bs x /\
    forall g', g_bytes g' = bs -> g_lits g' = g_lits g -> g_loops g' = g_loops g ->
      (g_max g <= g_max g')%Z -> (Z.of_nat h1 <= g_cur g' <= g_max g')%Z ->
      g_last g' = firstn 4 (map o_bc tl ++ no_last) -> rep scs g' c0 tl h1.
Proof.
  intros [(bs0 & P & H1 & H1') H2 H3 (p & H4 & H4') H5 H6 H7].
  rewrite code_cons, typ_app in H4. apply hseq_some in H4. destruct H4 as (h1 & q & r & T1 & T2 & ->).
  assert (T3 : op_ht (o_op x) h1 = Some h).
  { cbn [typ] in T2. rewrite typ_item_eq in T2. destruct (op_ht (o_op x) h1); [|discriminate].
    cbn [hseq typ] in T2. inversion T2; subst; auto. }
  exists h1, (bs0 ++ obytes tl). split; auto. split; [rewrite H1', obytes_cons, app_assoc; auto|].
  intros g' E1 E2 E3 E4 E5 E6. inversion H2; subst.
  split; rewrite ?E2, ?E3; auto.
  - exists bs0, P. auto.
  - exists q. split; auto. lia.
  - intros Hl. specialize (H6 Hl). rewrite code_cons, noret_app in H6. apply andb_true_iff in H6. apply H6.
  - intros Hl. specialize (H7 Hl). inversion H7; auto.
Qed.
(** Operations of the buffer may be moved to the code before it. *)
Lemma rep_shift scs g c0 a b h : rep scs g c0 (a ++ b) h ->
  forall g', g_bytes g' = g_bytes g -> g_lits g' = g_lits g -> g_loops g' = g_loops g ->
  g_max g' = g_max g -> g_cur g' = g_cur g -> g_last g' = firstn 4 (map o_bc a ++ no_last) ->
  rep scs g' (code c0 b) a h.
Proof.
  intros [(bs0 & P & H1 & H1') H2 H3 H4 H5 H6 H7] g' E1 E2 E3 E4 E5 E6.
  assert (Ec : code (code c0 b) a = code c0 (a ++ b)) by (unfold code; rewrite opcode_app, app_assoc; auto).
  apply Forall_app in H2. destruct H2 as [Ha Hb].
  split; rewrite ?E2, ?E3, ?E4, ?E5, ?Ec; auto.
  - exists (bs0 ++ obytes b), (P ++ []). rewrite E1, H1', obytes_app, app_assoc. split; auto.
    rewrite <- (app_nil_r (g_loops g)). eapply enc_app; eauto. apply enc_ops; auto.
  - intros Hl. apply H7 in Hl. apply Forall_app in Hl. apply Hl.
Qed.

(** * Peephole optimisations *)
Lemma is_eq a b : is a b = true -> a = b.
Proof.
  intros H. apply Nat.eqb_eq in H. apply (f_equal of_num) in H. rewrite !num_of in H. congruence.
Qed.
Lemma is_refl a : is a a = true.
Proof. apply Nat.eqb_refl. Qed.
Lemma is_neq a b : a <> b -> is a b = false.
Proof. intros H. destruct (is a b) eqn:E; auto. apply is_eq in E. contradiction. Qed.
Lemma is_false a b : is a b = false -> a <> b.
Proof. intros H ->. rewrite is_refl in H. discriminate. Qed.
Definition is_set (o : op) : Prop :=
  match o with OSetLoc _ _ | OSetArg _ _ | OSetFld _ _ => True | _ => False end.
Lemma send_bc_cases n : send_bc n = B_send_1 \/ send_bc n = B_send_2 \/ send_bc n = B_send_3 \/ send_bc n = B_send_n.
Proof. destruct n as [|[|[|[|n]]]]; simpl; auto. Qed.
Ltac by_op H := inversion H; subst;
  try match goal with t : text |- _ => destruct (send_bc_cases (nargs t)) as [Es | [Es | [Es | Es]]]; rewrite ?Es in * end;
  try discriminate.
Lemma popx_op C ls A o b bo : enc_op C ls A o b bo -> is_one_of b POP_X = true -> is_set o.
Proof. intros H Hb. by_op H; simpl; auto. Qed.
Lemma dup_op C ls A o b bo : enc_op C ls A o b bo -> b = B_dup -> o = ODup /\ bo = [num B_dup].
Proof. intros H Hb. by_op H; auto. Qed.
Lemma inc_op C ls A o b bo : enc_op C ls A o b bo -> b = B_inc -> o = OInc /\ bo = [num B_inc].
Proof. intros H Hb. by_op H; auto. Qed.
Lemma incfldpush_op C ls (A : allow) o b bo : enc_op C ls A o b bo -> b = B_inc_field_push ->
  exists k i, o = OIncFldPush k i /\ bo = [num B_inc_field_push; i; k] /\ (k <> 0 -> A k AFld).
Proof. intros H Hb. by_op H; eauto 6. Qed.
Lemma incfld_op C ls (A : allow) o b bo : enc_op C ls A o b bo -> b = B_inc_field ->
  exists k i, o = OIncFld k i /\ bo = [num B_inc_field; i; k] /\ (k <> 0 -> A k AFld).
Proof. intros H Hb. by_op H; eauto 6. Qed.
Lemma pushfld_op C ls (A : allow) o b bo : enc_op C ls A o b bo -> is_one_of b PUSH_FIELD = true ->
  exists k i, o = OFld k i /\ (k <> 0 -> A k AFld) /\
    match b with B_push_field_0 => k = 0 /\ i = 0 /\ bo = [num b] | B_push_field_1 => k = 0 /\ i = 1 /\ bo = [num b]
    | _ => b = B_push_field /\ bo = [num B_push_field; i; k] end.
Proof. intros H Hb. by_op H; eauto 8. all: do 2 eexists; split; [reflexivity|split; [congruence|auto]]. Qed.
Lemma len_op C ls A o b bo : enc_op C ls A o b bo -> blen b = length bo.
Proof. intros H. destruct (enc_op_head _ _ _ _ _ _ _ H) as (t & _ & E). auto. Qed.

Definition same_exec (a b : list item) : Prop := forall S X (μ : machine S X) n st s, exec μ a n st s = exec μ b n st s.
Definition same_blks (a b : list item) : Prop := oblks a = oblks b.
Lemma blks_tail a b c : oblks b = oblks c -> same_blks (a ++ b) (a ++ c).
Proof. intros H. unfold same_blks. rewrite !oblks_app, H. reflexivity. Qed.
Lemma blks_self a b : oblks b = [] -> same_blks (a ++ b) a.
Proof. intros H. unfold same_blks. rewrite !oblks_app, H, app_nil_r. reflexivity. Qed.
(** Code that ends with operations which stand for a value of [d] ends within [d]. *)
Lemma suffix_one pre (i : item) pref d : pre ++ [i] = pref ++ d -> d <> [] ->
  exists d0, d = d0 ++ [i] /\ pre = pref ++ d0.
Proof.
  intros E Hd. destruct (exists_last Hd) as (d0 & j & ->). exists d0.
  rewrite app_assoc in E. apply app_inj_tail in E. destruct E as [-> ->]. auto.
Qed.
Lemma typ_nonnil d p : typ d 0 = Some (1, p) -> d <> [].
Proof. intros H ->. discriminate. Qed.

Lemma typ_split a b h h' p : typ (a ++ b) h = Some (h', p) ->
  exists h1 p1 r, typ a h = Some (h1, p1) /\ typ b h1 = Some (h', r) /\ p = Nat.max p1 r.
Proof. rewrite typ_app. apply hseq_some. Qed.
Lemma typ_op o h h' p : typ [IOp o] h = Some (h', p) -> op_ht o h = Some h'.
Proof.
  cbn [typ]. rewrite typ_item_eq. destruct (op_ht o h); [|discriminate]. cbn [hseq typ]. intros H. inversion H; auto.
Qed.
Lemma set_ht o h h' : is_set o -> op_ht o h = Some h' -> h = S h'.
Proof.
  destruct o; simpl is_set; try contradiction; intros _; unfold op_ht;
  destruct (1 <=? h) eqn:E; try discriminate; apply Nat.leb_le in E; intros H; inversion H; lia.
Qed.
Lemma set_ht' o h : is_set o -> op_ht o (S h) = Some h.
Proof. destruct o; simpl is_set; try contradiction; intros _; unfold op_ht; cbn [Nat.leb]; f_equal; lia. Qed.
Lemma set_exec {S X} (μ : machine S X) o : is_set o ->
  exists f : value -> S -> BcInterp.out S X unit, forall st s, exec_op μ o st s = pop st (fun v r => bind (f v s) (fun _ s => Done r s)).
Proof. destruct o; simpl is_set; try contradiction; intros _; eexists; intros; reflexivity. Qed.
Lemma removelast_bytes (a b c : list nat) : firstn (length (a ++ b ++ c) - (length c + length b)) (a ++ b ++ c) ++
  skipn (length (a ++ b ++ c) - (length c + length b) + length b) (a ++ b ++ c) = a ++ c.
Proof.
  rewrite !app_length. replace (length a + (length b + length c) - (length c + length b)) with (length a) by lia.
  rewrite firstn_app, firstn_all, Nat.sub_diag. simpl. rewrite app_nil_r. f_equal.
  rewrite app_assoc, <- app_length. rewrite skipn_app, skipn_all, Nat.sub_diag. reflexivity.
Qed.
(** What dropping the value does: either a pop, or the value is not pushed. *)
Inductive popped (scs : list scope) (g g' : mg) (c0 : list item) (tl : list oper) : Prop :=
| Pop_pop : g' = emit1 B_pop (-1) g -> popped scs g g' c0 tl
| Pop_set x tl1 : tl = x :: (ODup, B_dup, [num B_dup]) :: tl1 -> is_one_of (o_bc x) POP_X = true -> peep_off g = false ->
    lastb 0 g = o_bc x ->
    (exists bs, g_bytes g = bs ++ [num B_dup] ++ o_bs x /\
      g' = with_last [lastb 0 g; lastb 2 g; lastb 3 g; B_invalid] (with_bytes (bs ++ o_bs x) g)) -> popped scs g g' c0 tl
| Pop_inc k i tl1 : tl = (OIncFldPush k i, B_inc_field_push, [num B_inc_field_push; i; k]) :: tl1 -> peep_off g = false ->
    lastb 0 g = B_inc_field_push ->
    (exists bs, g_bytes g = bs ++ [num B_inc_field_push; i; k] /\
      g' = with_last (B_inc_field :: List.tl (g_last g)) (with_bytes (bs ++ [num B_inc_field; i; k]) g)) -> popped scs g g' c0 tl.
Lemma dup_pop_pop scs g c0 tl h b g' : rep scs g c0 tl h -> optimize_dup_pop_pop g = Ok (b, g') ->
  if b then popped scs g g' c0 tl else g' = g.
Proof.
  intros Hr H. unfold optimize_dup_pop_pop in H.
  destruct (peep_off g) eqn:Hi; [injection H as <- <-; auto|].
  unfold last_is, last_one_of in H.
  destruct (is (lastb 0 g) B_inc_field_push) eqn:E0.
  - apply is_eq in E0. destruct (last_split _ _ _ _ _ Hr) as (x & tl1 & -> & Ex); [congruence|].
    pose proof (r_tl _ _ _ _ _ Hr) as Ht. inversion Ht as [|? ? Hx Ht']; subst.
    destruct (incfldpush_op _ _ _ _ _ _ Hx) as (k & i & Eo & Eb & _); [congruence|].
    destruct (r_enc _ _ _ _ _ Hr) as (bs0 & P & _ & Hb). rewrite obytes_cons, app_assoc in Hb.
    unfold optimize_inc_field_push in H. rewrite Hb, Eb in H.
    replace (length ((bs0 ++ obytes tl1) ++ [num B_inc_field_push; i; k]) - 3) with (length (bs0 ++ obytes tl1)) in H
      by (rewrite (app_length (_ ++ _)); simpl; lia).
    rewrite byte_pre in H. cbn [Base.bind] in H. rewrite Nat.eqb_refl, set_pre in H. injection H as <- <-.
    apply (Pop_inc _ _ _ _ _ k i tl1); auto.
    + destruct x as [[o b] bo]. unfold o_op, o_bc, o_bs in *. simpl in *. rewrite Eo, Eb, Ex, E0. reflexivity.
    + exists (bs0 ++ obytes tl1). split; auto. rewrite Hb, Eb. reflexivity.
  - destruct (is_one_of (lastb 0 g) POP_X) eqn:E1; [|injection H as <- <-; reflexivity]. cbn [negb] in H.
    destruct (is (lastb 1 g) B_dup) eqn:E2; [|injection H as <- <-; reflexivity]. cbn [negb] in H.
    destruct (last_split _ _ _ _ _ Hr) as (x & tl1 & -> & Ex); [intros E; rewrite E in E1; discriminate|].
    apply is_eq in E2. destruct (last_split2 _ _ _ _ _ _ Hr) as (y & tl2 & -> & Ey); [congruence|].
    pose proof (r_tl _ _ _ _ _ Hr) as Ht. inversion Ht as [|? ? Hx Ht']; subst. inversion Ht' as [|? ? Hy _]; subst.
    destruct (dup_op _ _ _ _ _ _ Hy) as [Eo Eb]; [congruence|].
    destruct (r_enc _ _ _ _ _ Hr) as (bs0 & P & _ & Hb).
    rewrite !obytes_cons, <- app_assoc, app_assoc, Eb in Hb.
    unfold remove_second_last in H.
    replace (is (lastb 0 g) B_invalid) with false in H
      by (symmetry; apply is_neq; intros E; rewrite E in E1; discriminate).
    rewrite E2 in H. cbn [orb is] in H. change (is B_dup B_invalid) with false in H. cbv iota in H.
    assert (Hl : last_len 2 g = length (o_bs x) + 1).
    { unfold last_len. rewrite (r_last _ _ _ _ _ Hr). cbn [map app firstn list_sum fold_right].
      rewrite (len_op _ _ _ _ _ _ Hx), (len_op _ _ _ _ _ _ Hy), Eb. simpl length. lia. }
    rewrite Hl, Hb in H. cbn [blen] in H.
    destruct (_ <=? _) in H; [|discriminate]. cbn [Base.bind] in H.
    pose proof (removelast_bytes (bs0 ++ obytes tl2) [num B_dup] (o_bs x)) as Er. cbn [length] in Er.
    rewrite Er in H. injection H as <- <-.
    apply (Pop_set _ _ _ _ _ x tl2); auto.
    + destruct y as [[o b] bo]. unfold o_op, o_bc, o_bs in *. simpl in *. rewrite Eo, Eb, Ey, E2. reflexivity.
    + congruence.
    + exists (bs0 ++ obytes tl2). split; auto.
Qed.

Definition mk (g : mg) (bs : list nat) (l : list bc) (c : Z) : mg :=
  {| g_bytes := bs; g_lits := g_lits g; g_last := l; g_inl := g_inl g; g_peep := g_peep g; g_loops := g_loops g;
     g_cur := c; g_max := g_max g |}.
Lemma exec_1 {S X} (μ : machine S X) i c n st s :
  exec μ (i :: c) n st s = bind (exec_item μ i n st s) (fun st s => exec μ c n st s).
Proof. reflexivity. Qed.
Lemma same_exec_app a b c : same_exec b c -> same_exec (a ++ b) (a ++ c).
Proof. intros H S X μ n st s. rewrite !exec_app. apply bind_ext. auto. Qed.
Lemma dup_set_pop o : is_set o -> same_exec [IOp o] [IOp ODup; IOp o; IOp OPop].
Proof.
  intros Ho S X μ n st s. destruct (set_exec μ o Ho) as (f & Hf). simpl. destruct st as [|v st]; simpl.
  - rewrite Hf. reflexivity.
  - rewrite !Hf. simpl. rewrite !bind_assoc. apply bind_ext. reflexivity.
Qed.
Lemma incpush_pop k i : same_exec [IOp (OIncFld k i)] [IOp (OIncFldPush k i); IOp OPop].
Proof.
  intros S X μ n st s. simpl. rewrite !bind_assoc. apply bind_ext. reflexivity.
Qed.
Lemma set_oblks o : is_set o -> oblks [IOp o] = [].
Proof. destruct o; simpl; auto; contradiction. Qed.
Lemma set_oblks_item o : is_set o -> oblks_item (IOp o) = [].
Proof. destruct o; simpl; auto; contradiction. Qed.
Lemma inner_set x : is_set (o_op x) -> inner_op x.
Proof. unfold inner_op. destruct (o_op x); simpl; auto; contradiction. Qed.
Lemma popped_rep scs g g' c0 tl h pref d p : rep scs g c0 tl (S h) -> code c0 tl = pref ++ d ->
  typ d 0 = Some (1, p) -> popped scs g g' c0 tl ->
  exists d' c0' tl', code c0' tl' = pref ++ d' /\ rep scs g' c0' tl' h /\ g_lits g' = g_lits g /\
    same_exec d' (d ++ [IOp OPop]) /\ d' <> [] /\ same_blks d' d.
Proof.
  intros Hr Hc Hd [-> | x tl1 -> Hx Hi Hl (bs & Hb & ->) | k i tl1 -> Hi Hl (bs & Hb & ->)].
  - exists (d ++ [IOp OPop]), c0, ((OPop, B_pop, [num B_pop]) :: tl). rewrite code_cons, Hc, <- app_assoc.
    split; [reflexivity|]. split; [|split; [reflexivity|split; [intros S X μ n st s; reflexivity|split; [destruct d; discriminate|apply blks_self; reflexivity]]]].
    eapply rep_emit; eauto using scs_le_refl.
    + apply emits_pop.
    + unfold op_ht. cbn [Nat.leb]. f_equal. lia.
    + intros _. exact Logic.I.
  - rewrite !code_cons, <- app_assoc in Hc. cbn [app o_op fst] in Hc.
    change (code c0 tl1 ++ [IOp ODup; IOp (o_op x)]) with (code c0 tl1 ++ [IOp ODup] ++ [IOp (o_op x)]) in Hc.
    rewrite app_assoc in Hc. destruct (suffix_one _ _ _ _ Hc (typ_nonnil _ _ Hd)) as (d1 & -> & Hc1).
    pose proof (r_tl _ _ _ _ _ Hr) as Ht. inversion Ht as [|? ? Hx1 _]; subst.
    pose proof (popx_op _ _ _ _ _ _ Hx1 Hx) as Hs.
    assert (Hd1 : d1 <> []).
    { intros ->. cbn [app] in Hd. apply typ_op in Hd. apply set_ht in Hd; auto. discriminate. }
    destruct (suffix_one _ _ _ _ Hc1 Hd1) as (d0 & -> & Hc0).
    exists (d0 ++ [IOp (o_op x)]), (code c0 (skipn 2 tl1)), (x :: firstn 2 tl1).
    split.
    { rewrite code_cons, app_assoc, <- Hc0. f_equal. unfold code. rewrite <- app_assoc, <- opcode_app, firstn_skipn. reflexivity. }
    destruct (rep_cut _ _ _ _ _ _ Hr) as (h1 & bs1 & T1 & B1 & R1).
    apply set_ht in T1; auto. subst h1.
    specialize (R1 (mk g bs1 (firstn 4 (map o_bc ((ODup, B_dup, [num B_dup]) :: tl1) ++ no_last)) (Z.of_nat (S (S h))))
                  eq_refl eq_refl eq_refl (Z.le_refl _)).
    destruct (r_typ _ _ _ _ _ Hr) as (q & Q1 & Q2).
    rewrite code_cons in Q1. apply typ_split in Q1. destruct Q1 as (h2 & p2 & r2 & Q1 & Q3 & ->).
    apply typ_op, set_ht in Q3; auto. subst h2. apply typ_peak in Q1. cbn [g_cur g_max mk] in R1.
    assert (R2 := R1 ltac:(lia) eq_refl). clear R1.
    destruct (rep_cut _ _ _ _ _ _ R2) as (h1 & bs2 & T2 & B2 & R3).
    assert (h1 = S h).
    { unfold o_op, op_ht in T2. cbn [fst] in T2. destruct (1 <=? h1); inversion T2; auto. } subst h1.
    cbn [mk g_bytes o_bs snd] in B2.
    assert (Ebs : bs2 = bs).
    { rewrite B1, B2 in Hb. rewrite <- app_assoc in Hb. apply app_inv_tail in Hb. auto. } subst bs2.
    specialize (R3 (mk g bs (firstn 4 (map o_bc tl1 ++ no_last)) (Z.of_nat (S h))) eq_refl eq_refl eq_refl (Z.le_refl _)).
    cbn [g_cur g_max mk] in R3. assert (R4 := R3 ltac:(lia) eq_refl). clear R3.
    rewrite <- (firstn_skipn 2 tl1) in R4.
    assert (R5 := rep_shift _ _ _ _ _ _ R4 (mk g bs (firstn 4 (map o_bc (firstn 2 tl1) ++ no_last)) (Z.of_nat (S h)))
      eq_refl eq_refl eq_refl eq_refl eq_refl eq_refl).
    split; [|split; [reflexivity|]].
    2:{ split; [rewrite <- !app_assoc; apply same_exec_app; apply dup_set_pop; auto|split; [destruct d0; discriminate|rewrite <- app_assoc; apply blks_tail; cbn [app oblks flat_map]; rewrite set_oblks_item by auto; reflexivity]]. }
    destruct x as [[o b] bo]. cbn [o_op o_bc o_bs fst snd] in *. cbn [with_last with_bytes g_lits].
    pose proof (r_cur _ _ _ _ _ Hr).
    eapply rep_emit; [exact R5| |apply scs_le_refl|apply set_ht'; auto| |].
    + split; cbn [mk g_bytes g_lits g_last g_inl g_peep g_loops g_cur g_max with_last with_bytes]; auto.
      * exists []. rewrite app_nil_r; auto.
      * rewrite (lastb_nth _ _ _ _ _ 0 Hr), (lastb_nth _ _ _ _ _ 2 Hr), (lastb_nth _ _ _ _ _ 3 Hr) by lia.
        destruct tl1 as [|y0 [|y1 tl1]]; reflexivity.
      * lia.
      * intros a a' Ha Hle. apply set_ht in Ha; auto. lia.
    + intros _. destruct o; simpl in Hs; try contradiction; reflexivity.
    + intros _. apply inner_set. auto.
  - rewrite code_cons in Hc. destruct (suffix_one _ _ _ _ Hc (typ_nonnil _ _ Hd)) as (d0 & -> & Hc0).
    cbn [o_op fst] in *.
    exists (d0 ++ [IOp (OIncFld k i)]), c0, ((OIncFld k i, B_inc_field, [num B_inc_field; i; k]) :: tl1).
    split. { rewrite code_cons, Hc0, <- app_assoc. reflexivity. }
    pose proof (r_tl _ _ _ _ _ Hr) as Ht. inversion Ht as [|? ? Hx1 _]; subst.
    destruct (rep_cut _ _ _ _ _ _ Hr) as (h1 & bs1 & T1 & B1 & R1).
    cbn [o_op fst op_ht] in T1. inversion T1; subst h1. clear T1.
    cbn [o_bs snd] in B1. rewrite B1 in Hb. apply app_inv_tail in Hb. subst bs1.
    specialize (R1 (mk g bs (firstn 4 (map o_bc tl1 ++ no_last)) (Z.of_nat h)) eq_refl eq_refl eq_refl (Z.le_refl _)).
    pose proof (r_cur _ _ _ _ _ Hr).
    cbn [g_cur g_max mk] in R1. assert (R2 := R1 ltac:(lia) eq_refl). clear R1.
    split; [|split; [reflexivity|]].
    2:{ split; [rewrite <- !app_assoc; apply same_exec_app; apply incpush_pop|split; [destruct d0; discriminate|apply blks_tail; reflexivity]]. }
    destruct (incfldpush_op _ _ _ _ _ _ Hx1 eq_refl) as (k' & i' & Eo & _ & Ha).
    cbn [o_op fst] in Eo. inversion Eo; subst k' i'.
    eapply rep_emit; [exact R2| |apply scs_le_refl|reflexivity| |].
    + split; cbn [mk g_bytes g_lits g_last g_inl g_peep g_loops g_cur g_max with_last with_bytes]; auto.
      * constructor; auto.
      * exists []. rewrite app_nil_r; auto.
      * rewrite (r_last _ _ _ _ _ Hr), (firstn_firstn _ 3 4). reflexivity.
      * lia.
      * intros a a' Ha' Hle. cbn [op_ht] in Ha'. inversion Ha'; subst. lia.
    + intros _. reflexivity.
    + intros _. exact Logic.I.
Qed.
Lemma emit_pop_ok scs g c0 tl h pref d p g' : rep scs g c0 tl (S h) -> code c0 tl = pref ++ d ->
  typ d 0 = Some (1, p) -> emit_pop g = Ok g' ->
  exists d' c0' tl', code c0' tl' = pref ++ d' /\ rep scs g' c0' tl' h /\ g_lits g' = g_lits g /\
    same_exec d' (d ++ [IOp OPop]) /\ d' <> [] /\ same_blks d' d.
Proof.
  intros Hr Hc Hd H. unfold emit_pop in H. destruct (optimize_dup_pop_pop g) as [[b g1]|] eqn:E; [|discriminate].
  cbn [Base.bind fst snd] in H. pose proof (dup_pop_pop _ _ _ _ _ _ _ Hr E) as Hp.
  eapply popped_rep; eauto. destruct b; injection H as <-; auto. subst g1. apply Pop_pop. reflexivity.
Qed.

(** ** A period after the last statement of a block *)
Definition stale (b : bc) : Prop := b = B_pop \/ is_one_of b POP_X = true \/ b = B_inc_field_push.
Definition end_ok (g : mg) : Prop :=
  lastb 0 g <> B_dup /\ (is_one_of (lastb 0 g) POP_X = true -> lastb 1 g = B_dup -> lastb 2 g <> B_dup).
Lemma existsb_num b l : existsb (fun x => num b =? num x) l = is_one_of b l.
Proof. reflexivity. Qed.
Lemma pop_unpop scs g c0 tl h g1 g2 : rep scs g c0 tl h -> end_ok g -> emit_pop g = Ok g1 ->
  remove_last_pop g1 = Ok g2 ->
  g_bytes g2 = g_bytes g /\ g_lits g2 = g_lits g /\ g_loops g2 = g_loops g /\ (g_max g <= g_max g2)%Z /\
  stale (lastb 0 g2).
Proof.
  intros Hr [He1 He2] H1 H2. unfold emit_pop in H1. destruct (optimize_dup_pop_pop g) as [[b g0]|] eqn:E; [|discriminate].
  cbn [Base.bind fst snd] in H1. pose proof (dup_pop_pop _ _ _ _ _ _ _ Hr E) as Hp.
  assert (Hp' : popped scs g g1 c0 tl).
  { destruct b; injection H1 as <-; auto. subst g0. apply Pop_pop. reflexivity. }
  clear E Hp H1. unfold remove_last_pop in H2. unfold last_is, last_one_of in H2.
  destruct Hp' as [-> | x tl1 -> Hx Hi Hl (bs & Hb & ->) | k i tl1 -> Hi Hl (bs & Hb & ->)].
  - change (lastb 0 (emit1 B_pop (-1) g)) with B_pop in H2. rewrite is_refl in H2.
    destruct (_ =? 0) in H2; [discriminate|]. injection H2 as <-. cbn.
    rewrite app_length, Nat.add_sub, firstn_app, firstn_all, Nat.sub_diag. simpl. rewrite app_nil_r.
    repeat split; auto. lia. left; reflexivity.
  - cbn [with_last with_bytes g_bytes g_last lastb nth] in H2.
    pose proof (r_tl _ _ _ _ _ Hr) as Ht. inversion Ht as [|? ? Hx1 _]; subst.
    unfold lastb in H2. cbn [g_last nth] in H2. fold (lastb 0 g) in H2. fold (lastb 2 g) in H2. fold (lastb 3 g) in H2.
    rewrite Hl in *. assert (D : lastb 1 g = B_dup) by (rewrite (lastb_nth _ _ _ _ _ 1 Hr) by lia; reflexivity).
    specialize (He2 Hx D).
    replace (is (o_bc x) B_pop) with false in H2 by (symmetry; apply is_neq; intros E; rewrite E in Hx; discriminate).
    rewrite Hx, (is_neq _ _ He2), (len_op _ _ _ _ _ _ Hx1) in H2. cbn [andb negb] in H2.
    rewrite app_length, Nat.add_sub in H2.
    destruct (_ <=? _) in H2; [|discriminate].
    destruct (enc_op_head _ _ _ _ _ _ _ Hx1) as (t & Et & _). rewrite Et in H2.
    rewrite byte_pre in H2. cbn [Base.bind] in H2. rewrite existsb_num, Hx in H2. cbn [Base.bind] in H2.
    cbn [with_last with_bytes g_bytes g_last nth g_lits g_inl g_peep g_loops g_cur g_max] in H2.
    replace (is (o_bc x) B_inc_field) with false in H2 by (symmetry; apply is_neq; intros E; rewrite E in Hx; discriminate).
    injection H2 as <-. cbn [g_bytes g_lits g_loops g_max]. rewrite firstn_app, firstn_all, Nat.sub_diag, skipn_app, skipn_all, Nat.sub_diag.
    cbn [firstn skipn app]. rewrite app_nil_r, Hb, Et. repeat split; auto. simpl; lia. right; left. exact Hx.
  - unfold lastb in H2. cbn [with_last with_bytes g_bytes g_last nth] in H2.
    change (is B_inc_field B_pop) with false in H2. change (is_one_of B_inc_field POP_X) with false in H2.
    cbn [andb Base.bind g_last nth g_bytes with_last with_bytes] in H2. rewrite is_refl, app_length in H2. cbn [length] in H2.
    rewrite Nat.add_sub, byte_pre in H2. cbn [Base.bind] in H2. rewrite Nat.eqb_refl, set_pre in H2.
    injection H2 as <-. cbn. rewrite Hb. repeat split; auto. lia. right; right; reflexivity.
Qed.

(** ** Returning a field *)
Lemma return_none g : is_one_of (lastb 0 g) PUSH_FIELD = false -> optimize_return_field g = Ok (false, g).
Proof.
  unfold optimize_return_field. intros H. destruct (peep_off g); auto. destruct (lastb 0 g); auto; discriminate.
Qed.
Lemma return_block scs g c0 tl h r : rep scs g c0 tl h -> 2 <= length scs -> optimize_return_field g = Ok r -> r = (false, g).
Proof.
  intros Hr Hl H. destruct (is_one_of (lastb 0 g) PUSH_FIELD) eqn:E.
  2:{ rewrite return_none in H by auto. congruence. }
  unfold optimize_return_field in H. destruct (peep_off g); [congruence|].
  destruct (last_split _ _ _ _ _ Hr) as (x & tl1 & -> & Ex); [intros E'; rewrite E' in E; discriminate|].
  pose proof (r_tl _ _ _ _ _ Hr) as Ht. inversion Ht as [|? ? Hx _]; subst.
  pose proof (r_fld _ _ _ _ _ Hr Hl) as Hf. inversion Hf as [|? ? Hx2 _]; subst.
  rewrite <- Ex in *. destruct (pushfld_op _ _ _ _ _ _ Hx E) as (k & i & Eo & Ha & Hb).
  unfold inner_op in Hx2. rewrite Eo in Hx2. destruct k as [|k]; [contradiction|].
  destruct (o_bc x); try discriminate; try (destruct Hb; discriminate).
  destruct Hb as [_ Hb]. destruct (r_enc _ _ _ _ _ Hr) as (bs0 & P & _ & Hg).
  rewrite obytes_cons, app_assoc, Hb in Hg. rewrite Hg in H.
  replace (length ((bs0 ++ obytes tl1) ++ [num B_push_field; i; S k]) - 1) with (length (bs0 ++ obytes tl1) + 2) in H
    by (rewrite (app_length (_ ++ _)); simpl; lia).
  rewrite byte_pre2 in H. cbn [Base.bind] in H. cbn [Nat.ltb Nat.leb] in H. congruence.
Qed.
(** A [rep] without the current depth: what remains to be known at the end. *)
Record fin_rep (scs : list scope) (g : mg) (c : list item) (h : nat) : Prop := {
  f_enc : exists P, enc (cx_of scs) (g_lits g) (A_of scs) 0 c (g_bytes g) (g_loops g) P;
  f_typ : exists p, typ c 0 = Some (h, p) /\ (Z.of_nat p <= g_max g)%Z }.
Lemma base_fin scs g c h : base scs g c h -> fin_rep scs g c h.
Proof. intros [H1 H2 H3 H4]. split; auto. Qed.
Lemma fin_emit scs scs' g g' c h h' o b bo : fin_rep scs g c h ->
  emits (cx_of scs') (g_lits g') (A_of scs') g g' o b bo -> scs_le scs scs' ->
  op_ht o h = Some h' -> h' <= h -> fin_rep scs' g' (c ++ [IOp o]) h'.
Proof.
  intros [(P & H1) (p & H2 & H3)] [G1 G2 G3 G4 G5 G6 G7 G8] Hs Ho Hh. split.
  - exists (P ++ []). rewrite G2, G6, <- (app_nil_r (g_loops g)). eapply enc_app.
    + eapply enc_mono; eauto using cx_of_le, A_of_le, lits_le_ex.
    + eapply enc_one; eauto.
  - exists (Nat.max p (Nat.max h h')). rewrite typ_app, H2. cbn [hseq]. rewrite (typ_one _ _ _ Ho). split; auto.
    apply typ_peak in H2. lia.
Qed.
Lemma return_local_root scs g c0 tl h g' pref d p : rep scs g c0 tl (S h) -> code c0 tl = pref ++ d ->
  typ d 0 = Some (1, p) -> emit_return_local g = Ok g' ->
  exists d' h', fin_rep scs g' (pref ++ d') h' /\ same_exec d' (d ++ [IOp ORet]) /\ same_blks d' d.
Proof.
  intros Hr Hc Hd H. unfold emit_return_local in H.
  assert (Plain : optimize_return_field g = Ok (false, g) ->
    exists d' h', fin_rep scs g' (pref ++ d') h' /\ same_exec d' (d ++ [IOp ORet]) /\ same_blks d' d).
  { intros E. rewrite E in H. cbn [Base.bind fst snd] in H. injection H as <-.
    exists (d ++ [IOp ORet]), (S h). split; [|split; [intros S X μ n st s; reflexivity|apply blks_self; reflexivity]].
    rewrite app_assoc, <- Hc. eapply fin_emit; [apply base_fin, rep_base; eauto|apply emits_ret|apply scs_le_refl|reflexivity|auto]. }
  destruct (is_one_of (lastb 0 g) PUSH_FIELD) eqn:E; [|apply Plain, return_none; auto].
  destruct (optimize_return_field g) as [[b g1]|] eqn:E1; [|discriminate]. cbn [Base.bind fst snd] in H.
  destruct (last_split _ _ _ _ _ Hr) as (x & tl1 & -> & Ex); [intros E'; rewrite E' in E; discriminate|].
  pose proof (r_tl _ _ _ _ _ Hr) as Ht. inversion Ht as [|? ? Hx _]; subst.
  unfold optimize_return_field in E1.
  destruct (peep_off g) eqn:Hi; [injection E1 as <- <-; apply Plain; reflexivity|].
  rewrite <- Ex in *. destruct (pushfld_op _ _ _ _ _ _ Hx E) as (k & i & Eo & Ha & Hb).
  assert (Opt : forall g2 g3, k = 0 -> remove_last 1 g = Ok g2 -> emit_return_field i (reset_last g2) = Ok g3 ->
    exists d' h', fin_rep scs g3 (pref ++ d') h' /\ same_exec d' (d ++ [IOp ORet]) /\ same_blks d' d).
  { intros g2 g3 -> R1 R2. rewrite code_cons in Hc. destruct (suffix_one _ _ _ _ Hc (typ_nonnil _ _ Hd)) as (d0 & -> & Hc0).
    destruct (rep_cut _ _ _ _ _ _ Hr) as (h1 & bs1 & T1 & B1 & R3).
    rewrite Eo in T1. cbn [op_ht] in T1. inversion T1; subst h1. clear T1.
    unfold remove_last in R1.
    assert (Hl : last_len 1 g = length (o_bs x)).
    { unfold last_len. rewrite (r_last _ _ _ _ _ Hr). cbn [map app firstn list_sum fold_right].
      rewrite (len_op _ _ _ _ _ _ Hx). lia. }
    rewrite Hl, B1 in R1. destruct (_ <=? _) in R1; [|discriminate].
    rewrite app_length, Nat.add_sub, firstn_app, firstn_all, Nat.sub_diag in R1. cbn [firstn] in R1. rewrite app_nil_r in R1.
    injection R1 as <-.
    pose proof (r_cur _ _ _ _ _ Hr).
    assert (R4 := R3 (mk g bs1 (firstn 4 (map o_bc tl1 ++ no_last)) (Z.of_nat h)) eq_refl eq_refl eq_refl (Z.le_refl _)).
    cbn [g_cur g_max mk] in R4. specialize (R4 ltac:(lia) eq_refl).
    apply rep_base, base_fin in R4. rewrite Hc0 in R4.
    assert (R5 : fin_rep scs (reset_last (with_bytes bs1 g)) (pref ++ d0) h).
    { destruct R4 as [F1 F2]. split; auto. }
    exists (d0 ++ [IOp (ORetFld i)]), h. split; [|split; [|rewrite Eo; apply blks_tail; reflexivity]].
    - assert (R6 : exists b bo, emits (cx_of scs) (g_lits g3) (A_of scs) (reset_last (with_bytes bs1 g)) g3 (ORetFld i) b bo).
      { destruct i as [|[|[|i]]]; try discriminate; cbn [emit_return_field] in R2;
        apply (f_equal (fun r => match r with Ok a => a | Err _ => g end)) in R2; subst g3;
        do 2 eexists; apply emits1; try constructor; intros a a' Ha'; cbn [op_ht] in Ha'; inversion Ha'; lia. }
      destruct R6 as (b' & bo & R6).
      rewrite app_assoc. eapply fin_emit; [exact R5|exact R6|apply scs_le_refl|reflexivity|auto].
    - rewrite <- app_assoc. apply same_exec_app. rewrite Eo. intros S X μ n st s. cbn [app].
      rewrite !exec_1, !exec_item_eq. cbn [exec_op exec]. rewrite !bind_assoc. apply bind_ext. reflexivity. }
  destruct (o_bc x) eqn:Eb; try discriminate.
  - (* push_field *)
    destruct Hb as [_ Hb]. destruct (r_enc _ _ _ _ _ Hr) as (bs0 & P & _ & Hg).
    rewrite obytes_cons, app_assoc, Hb in Hg. rewrite Hg in E1.
    replace (length ((bs0 ++ obytes tl1) ++ [num B_push_field; i; k]) - 1) with (length (bs0 ++ obytes tl1) + 2) in E1
      by (rewrite (app_length (_ ++ _)); simpl; lia).
    replace (length ((bs0 ++ obytes tl1) ++ [num B_push_field; i; k]) - 2) with (length (bs0 ++ obytes tl1) + 1) in E1
      by (rewrite (app_length (_ ++ _)); simpl; lia).
    rewrite byte_pre2 in E1. cbn [Base.bind] in E1. destruct (0 <? k) eqn:Ek; [apply Plain; congruence|].
    rewrite byte_pre1 in E1. cbn [Base.bind] in E1. destruct (2 <? i) eqn:Ei; [apply Plain; congruence|].
    destruct (remove_last 1 g) as [g2|] eqn:R1; [|discriminate]. cbn [Base.bind] in E1.
    destruct (emit_return_field i (reset_last g2)) as [g3|] eqn:R2; [|discriminate]. cbn [Base.bind] in E1.
    injection E1 as <- <-. injection H as <-. eapply Opt; eauto. apply Nat.ltb_ge in Ek. lia.
  - destruct Hb as (-> & -> & _). destruct (remove_last 1 g) as [g2|] eqn:R1; [|discriminate]. cbn [Base.bind] in E1.
    destruct (emit_return_field 0 (reset_last g2)) as [g3|] eqn:R2; [|discriminate]. cbn [Base.bind] in E1.
    injection E1 as <- <-. injection H as <-. eapply Opt; eauto.
  - destruct Hb as (-> & -> & _). destruct (remove_last 1 g) as [g2|] eqn:R1; [|discriminate]. cbn [Base.bind] in E1.
    destruct (emit_return_field 1 (reset_last g2)) as [g3|] eqn:R2; [|discriminate]. cbn [Base.bind] in E1.
    injection E1 as <- <-. injection H as <-. eapply Opt; eauto.
Qed.

(** ** Incrementing a field *)
Lemma remove_bytes (a b : list nat) : firstn (length (a ++ b) - length b) (a ++ b) = a.
Proof. rewrite app_length, Nat.add_sub, firstn_app, firstn_all, Nat.sub_diag. simpl. apply app_nil_r. Qed.
Lemma inc_field_ok scs g c0 tl h pref d p k i b g' : rep scs g c0 tl (S (S h)) ->
  code c0 tl = pref ++ d ++ [IOp ODup] -> typ d 0 = Some (1, p) -> optimize_inc_field i k g = Ok (b, g') ->
  if b then exists d0 c0',
    d = d0 ++ [IOp (OFld k i); IOp OInc] /\
    code c0' [(OIncFldPush k i, B_inc_field_push, [num B_inc_field_push; i; k])] = pref ++ d0 ++ [IOp (OIncFldPush k i)] /\
    rep scs g' c0' [(OIncFldPush k i, B_inc_field_push, [num B_inc_field_push; i; k])] (S h) /\ g_lits g' = g_lits g
  else g' = g.
Proof.
  intros Hr Hc Hd H. unfold optimize_inc_field, last_is, last_one_of in H.
  destruct (peep_off g); [injection H as <- <-; auto|].
  destruct (is (lastb 0 g) B_dup) eqn:E0; [|injection H as <- <-; reflexivity]. cbn [negb] in H.
  destruct (is (lastb 1 g) B_inc) eqn:E1; [|injection H as <- <-; reflexivity]. cbn [negb] in H.
  destruct (is_one_of (lastb 2 g) PUSH_FIELD) eqn:E2; [|injection H as <- <-; reflexivity]. cbn [negb] in H.
  apply is_eq in E0, E1.
  destruct (last_split _ _ _ _ _ Hr) as (x & tl1 & -> & Ex); [congruence|].
  destruct (last_split2 _ _ _ _ _ _ Hr) as (y & tl2 & -> & Ey); [congruence|].
  destruct (last_split3 _ _ _ _ _ _ _ Hr) as (z & tl3 & -> & Ez); [intros E; rewrite E in E2; discriminate|].
  pose proof (r_tl _ _ _ _ _ Hr) as Ht. inversion Ht as [|? ? Hx Ht1]; subst. inversion Ht1 as [|? ? Hy Ht2]; subst.
  inversion Ht2 as [|? ? Hz Ht3]; subst.
  destruct (dup_op _ _ _ _ _ _ Hx) as [Ox Bx]; [congruence|].
  destruct (inc_op _ _ _ _ _ _ Hy) as [Oy By]; [congruence|].
  rewrite <- Ez in *. destruct (pushfld_op _ _ _ _ _ _ Hz E2) as (k1 & i1 & Oz & Hk & Bz).
  destruct (r_enc _ _ _ _ _ Hr) as (bs0 & P & He & Hg).
  rewrite !obytes_cons, Bx, By in Hg.
  assert (Hg' : g_bytes g = (bs0 ++ obytes tl3) ++ o_bs z ++ [num B_inc] ++ [num B_dup]).
  { rewrite Hg. rewrite <- !app_assoc. reflexivity. } clear Hg. rename Hg' into Hg.
  assert (Ei : index_and_ctx_of_last (o_bc z) (1 + 1 + blen (o_bc z)) g = Ok (i1, k1)).
  { unfold index_and_ctx_of_last. rewrite Hg. destruct (o_bc z); try discriminate.
    - destruct Bz as [_ ->]. cbn [blen Nat.add].
      replace (length ((bs0 ++ obytes tl3) ++ [num B_push_field; i1; k1] ++ [num B_inc] ++ [num B_dup]) - 5) with (length (bs0 ++ obytes tl3))
        by (rewrite (app_length (_ ++ _)); simpl; lia).
      cbn [app]. rewrite byte_pre. cbn [Base.bind]. rewrite Nat.eqb_refl. cbn [negb].
      rewrite byte_pre1. cbn [Base.bind]. rewrite byte_pre2. reflexivity.
    - destruct Bz as (-> & -> & _). reflexivity.
    - destruct Bz as (-> & -> & _). reflexivity. }
  rewrite Ei in H. cbn [Base.bind fst snd] in H. clear Ei.
  destruct ((i1 =? i) && (k1 =? k)) eqn:Eq; [|injection H as <- <-; reflexivity].
  apply andb_true_iff in Eq. destruct Eq as [Eq1 Eq2]. apply Nat.eqb_eq in Eq1, Eq2. subst i1 k1.
  unfold remove_last in H.
  assert (Hl : last_len 3 g = length (o_bs z ++ [num B_inc] ++ [num B_dup])).
  { unfold last_len. rewrite (r_last _ _ _ _ _ Hr). cbn [map app firstn list_sum fold_right].
    rewrite (len_op _ _ _ _ _ _ Hx), (len_op _ _ _ _ _ _ Hy), (len_op _ _ _ _ _ _ Hz), Bx, By, app_length. simpl; lia. }
  rewrite Hl, Hg, remove_bytes in H. destruct (_ <=? _) in H; [|discriminate]. cbn [Base.bind] in H.
  injection H as <- <-.
  rewrite !code_cons, Ox, Oy, Oz in Hc. rewrite app_assoc in Hc. apply app_inj_tail in Hc. destruct Hc as [Hc _].
  destruct (suffix_one _ _ _ _ Hc (typ_nonnil _ _ Hd)) as (d1 & -> & Hc1).
  assert (Hd1 : d1 <> []). { intros ->. cbn [app] in Hd. apply typ_op in Hd. discriminate. }
  destruct (suffix_one _ _ _ _ Hc1 Hd1) as (d0 & -> & Hc0).
  exists d0, (code c0 tl3). split; [rewrite <- app_assoc; reflexivity|].
  split; [rewrite code_cons, code_nil, Hc0, <- app_assoc; reflexivity|]. split; [|reflexivity].
  destruct (r_typ _ _ _ _ _ Hr) as (q & Q1 & Q2).
  rewrite !code_cons, Ox, Oy, Oz in Q1. rewrite <- !app_assoc in Q1. apply typ_split in Q1.
  destruct Q1 as (h0 & p1 & r & Q1 & Q3 & ->).
  assert (h0 = h).
  { apply typ_split in Q3. destruct Q3 as (a & ? & ? & T1 & T2 & _). apply typ_op in T1. cbn [op_ht] in T1. inversion T1; subst a.
    apply typ_split in T2. destruct T2 as (a & ? & ? & T2 & T3 & _). apply typ_op in T2, T3. cbn [op_ht Nat.leb] in T2. inversion T2; subst a.
    cbn [op_ht Nat.leb] in T3. inversion T3. auto. } subst h0. clear Q3.
  pose proof (r_cur _ _ _ _ _ Hr) as Hcur.
  set (g1 := reset_last (with_bytes (bs0 ++ obytes tl3) g)).
  assert (R1 : rep scs g1 (code c0 tl3) [] h).
  { split.
    - exists (bs0 ++ obytes tl3), (P ++ []). split; [|unfold obytes; simpl; rewrite app_nil_r; reflexivity].
      unfold code. cbn [g1 reset_last with_last with_bytes g_lits g_loops]. rewrite <- (app_nil_r (g_loops g)).
      eapply enc_app; eauto. apply enc_ops; auto.
    - constructor.
    - reflexivity.
    - rewrite code_nil. exists p1. split; auto. cbn. lia.
    - cbn. lia.
    - intros Hl'. pose proof (r_nr _ _ _ _ _ Hr Hl') as Hn. rewrite code_nil. rewrite !code_cons, !noret_app in Hn.
      repeat (apply andb_true_iff in Hn; destruct Hn as [Hn _]). auto.
    - constructor. }
  eapply rep_emit; [exact R1| |apply scs_le_refl|reflexivity| |].
  - apply emits3; [constructor; auto|]. intros a a' Ha. cbn [op_ht] in Ha. inversion Ha. lia.
  - reflexivity.
  - intros _. exact Logic.I.
Qed.
End Rep.
