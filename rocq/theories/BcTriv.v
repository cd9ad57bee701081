(** Methods recognised as trivial: what their bytes are. *)
From Coq Require Import ZArith Bool String Ascii List Lia.
From Verif Require Import Base LexModel ParseModel BcModel BcInterp BcSpec BcCode BcSim BcEval BcMono BcAdapt BcScope BcEmit BcInl BcRep BcGen BcExpr BcMsg BcBlk BcMeth.
Import ListNotations.
Open Scope nat_scope.
Open Scope list_scope.

(** The code of a trivial method. *)
Definition triv_code (t : triv) (body : list item) : Prop :=
  match t with
  | TLit l => exists v, lit_value l = Some v /\ body = [IOp (OLit v); IOp ORet]
  | TGlob n _ => body = [IOp (OGlob n); IOp ORet]
  | TFld i k => body = [IOp (OFld k i); IOp ORet] \/ (k = 0 /\ body = [IOp (ORetFld i)])
  | TFldW f a => body = [IOp (OArg 0 a); IOp (OSetFld 0 f); IOp ORetSelf]
  end.

Section Triv.
Variable ce : cenv.
Notation fields := (ce_fields ce).
Notation enc_op := (enc_op fields).
Notation rep := (rep fields).
Notation gen_res := (gen_res ce).

(** The bytes of a generation context are those of the code. *)
Definition triv_bytes (scs : list scope) (g : mg) (t : triv) : Prop :=
  exists tl, g_bytes g = obytes tl /\
    Forall (fun x => enc_op (cx_of scs) (g_lits g) (A_of scs) (o_op x) (o_bc x) (o_bs x)) tl /\
    triv_code t (opcode tl) /\ match t with TGlob _ k | TFld _ k => k = max_ctx scs | _ => True end.

Lemma return_cases g g' : emit_return_local g = Ok g' ->
  g' = emit1 B_return_local 0 g \/ exists i g2, emit_return_field i (reset_last g2) = Ok g'.
Proof.
  unfold emit_return_local, optimize_return_field. intros H.
  assert (F : forall i, (r <- (g' <- remove_last 1 g ;; g'' <- emit_return_field i (reset_last g') ;; Ok (true, g'')) ;;
    Ok (if fst r then snd r else emit1 B_return_local 0 (snd r))) = Ok g' -> exists i g2, emit_return_field i (reset_last g2) = Ok g').
  { intros i Hi. destruct (remove_last 1 g) as [g1|]; [|discriminate]. cbn [Base.bind] in Hi.
    destruct (emit_return_field i (reset_last g1)) as [g2|] eqn:E; [|discriminate]. cbn [Base.bind fst snd] in Hi.
    injection Hi as <-. eauto. }
  destruct (peep_off g); [cbn [Base.bind fst snd] in H; injection H as <-; auto|].
  destruct (lastb 0 g); try (cbn [Base.bind fst snd] in H; injection H as <-; auto; fail); eauto.
  destruct (byte_at (g_bytes g) (length (g_bytes g) - 1)) as [c|]; [|discriminate]. cbn [Base.bind] in H.
  destruct (0 <? c); [cbn [Base.bind fst snd] in H; injection H as <-; auto|].
  destruct (byte_at (g_bytes g) (length (g_bytes g) - 2)) as [i|]; [|discriminate]. cbn [Base.bind] in H.
  destruct (2 <? i); [cbn [Base.bind fst snd] in H; injection H as <-; auto|]. eauto.
Qed.

(** A getter of a field. *)
Lemma triv_field scs i g g' t : length scs = 1 -> emit_return_field i (reset_last g) = Ok g' ->
  assemble_trivial false (max_ctx scs) g' = Ok (Some t) -> triv_bytes scs g' t.
Proof.
  intros Hs H Ht.
  assert (Hm : max_ctx scs = 0) by (unfold max_ctx; lia).
  destruct i as [|[|[|i]]]; cbn [emit_return_field] in H; try discriminate; injection H as <-;
    unfold assemble_trivial, last_is, last_one_of in Ht;
    cbn in Ht; rewrite app_length in Ht; cbn [length] in Ht;
    (destruct (length (g_bytes g) + 1 =? 1) eqn:E; [|discriminate]); apply Nat.eqb_eq in E; injection Ht as <-;
    assert (Hb : g_bytes g = []) by (apply length_zero_iff_nil; lia).
  - exists [(ORetFld 0, B_return_field_0, [num B_return_field_0])].
    split; [cbn; rewrite Hb; reflexivity|]. split; [repeat constructor|]. split; [right; split; reflexivity|auto].
  - exists [(ORetFld 1, B_return_field_1, [num B_return_field_1])].
    split; [cbn; rewrite Hb; reflexivity|]. split; [repeat constructor|]. split; [right; split; reflexivity|auto].
  - exists [(ORetFld 2, B_return_field_2, [num B_return_field_2])].
    split; [cbn; rewrite Hb; reflexivity|]. split; [repeat constructor|]. split; [right; split; reflexivity|auto].
Qed.

(** A method that answers one value. *)
Lemma triv_value scs g c0 tl h t : rep scs g c0 tl h -> length scs = 1 ->
  (forall v, code c0 tl = [IOp (OLit v)] -> g_lits g = [] \/ exists l, g_lits g = [l] /\ lit_value l = Some v) ->
  assemble_trivial false (max_ctx scs) (emit1 B_return_local 0 g) = Ok (Some t) ->
  triv_bytes scs (emit1 B_return_local 0 g) t.
Proof.
  intros Hr Hs Hc H. unfold assemble_trivial in H. destruct (last_emit1 B_return_local 0 g) as [L0 L1].
  unfold last_is, last_one_of in H. rewrite L0, L1, is_refl in H.
  assert (Hlen : length (g_bytes (emit1 B_return_local 0 g)) = S (length (g_bytes g))) by (simpl; rewrite app_length; simpl; lia).
  assert (Done : forall x tl1, tl = x :: tl1 -> length (g_bytes g) = blen (o_bc x) ->
    triv_code t [IOp (o_op x); IOp ORet] -> match t with TGlob _ k | TFld _ k => k = max_ctx scs | _ => True end ->
    triv_bytes scs (emit1 B_return_local 0 g) t).
  { intros x tl1 -> El Hp Hk. destruct (single _ _ _ _ _ _ _ Hr El) as [S1 S2].
    pose proof (r_tl _ _ _ _ _ _ Hr) as Ht. inversion Ht as [|? ? Hx _]; subst.
    exists [(ORet, B_return_local, [num B_return_local]); x].
    split; [cbn; rewrite S2; reflexivity|]. split; [constructor; [constructor|constructor; [exact Hx|constructor]]|]. split; auto. }
  destruct (is_one_of (lastb 0 g) PUSH_CONST) eqn:E1.
  { destruct (last_split _ _ _ _ _ _ Hr) as (x & tl1 & -> & Ex); [intros E; rewrite E in E1; discriminate|].
    pose proof (r_tl _ _ _ _ _ _ Hr) as Ht. inversion Ht as [|? ? Hx _]; subst. rewrite <- Ex in *.
    destruct (const_op _ _ _ _ _ _ _ Hx E1) as (v & Ev).
    unfold assemble_literal_return in H. rewrite Hlen, L0, L1 in H. cbn [blen] in H. rewrite Nat.add_1_r in H. cbn [Nat.eqb] in H.
    destruct (length (g_bytes g) =? blen (o_bc x)) eqn:El; [|discriminate]. apply Nat.eqb_eq in El.
    destruct (single _ _ _ _ _ _ _ Hr El) as [S1 S2]. rewrite Ev in S1.
    change (g_lits (emit1 B_return_local 0 g)) with (g_lits g) in H.
    assert (Hv : exists l, t = TLit l /\ lit_value l = Some v).
    { destruct (Hc v S1) as [Hg | (l & Hg & Hlv)].
      - rewrite Hg in H. change (g_bytes (emit1 B_return_local 0 g)) with (g_bytes g ++ [num B_return_local]) in H. rewrite S2 in H.
        rewrite Ev, Hg in Hx.
        destruct (const_nolits _ _ _ _ _ _ Hx) as [[-> Hs0] | [[-> Hs0] | [-> Hs0]]];
          rewrite Hs0 in H; cbn in H; injection H as <-; eexists; split; reflexivity.
      - rewrite Hg in H. cbn [Base.bind] in H. injection H as <-. eauto. }
    destruct Hv as (l & -> & Hv). eapply Done; eauto. cbn [triv_code]. rewrite Ev. eauto. }
  destruct (is (lastb 0 g) B_push_global) eqn:E2.
  { apply is_eq in E2. destruct (last_split _ _ _ _ _ _ Hr) as (x & tl1 & -> & Ex); [congruence|].
    pose proof (r_tl _ _ _ _ _ _ Hr) as Ht. inversion Ht as [|? ? Hx _]; subst. rewrite <- Ex in *.
    destruct (glob_op _ _ _ _ _ _ _ Hx E2) as (i & n & Et & Hn & Hp).
    unfold assemble_global_return in H. rewrite Hlen, L0, L1 in H. cbn [blen] in H. rewrite Nat.add_1_r in H. cbn [Nat.eqb] in H.
    destruct (length (g_bytes g) =? blen (o_bc x)) eqn:El; [|discriminate]. apply Nat.eqb_eq in El.
    change (g_lits (emit1 B_return_local 0 g)) with (g_lits g) in H.
    destruct (g_lits g) as [|l [|]]; try discriminate; [|destruct l; discriminate]. destruct l as [|n'|]; try discriminate.
    assert (n' = n). { destruct i as [|[|]]; cbn in Hn; congruence. } subst n'.
    unfold plain_global in Hp. apply andb_true_iff in Hp as Hp'. destruct Hp' as [Hp' P3]. apply andb_true_iff in Hp'. destruct Hp' as [P1 P2].
    apply negb_true_iff in P1, P2, P3. rewrite P1, P2, P3 in H. cbn [Base.bind] in H. injection H as <-.
    eapply Done; eauto. cbn [triv_code]. rewrite Et. reflexivity. }
  destruct (is_one_of (lastb 0 g) PUSH_FIELD) eqn:E3.
  { destruct (last_split _ _ _ _ _ _ Hr) as (x & tl1 & -> & Ex); [intros E; rewrite E in E3; discriminate|].
    pose proof (r_tl _ _ _ _ _ _ Hr) as Ht. inversion Ht as [|? ? Hx _]; subst. rewrite <- Ex in *.
    destruct (pushfld_op _ _ _ _ _ _ _ Hx E3) as (k & i & Eo & Ha & Hb).
    assert (k = 0). { destruct k as [|k]; auto. destruct (Ha ltac:(lia)) as [_ (sc & _ & Hk)]. lia. } subst k.
    unfold assemble_field_getter in H. rewrite Hlen, L0, L1 in H. cbn [blen] in H. rewrite Nat.add_1_r in H.
    destruct (S (length (g_bytes g)) =? S (blen (o_bc x))) eqn:El; [|discriminate]. apply Nat.eqb_eq in El. injection El as El.
    destruct (single _ _ _ _ _ _ _ Hr El) as [S1 S2].
    assert (t = TFld i 0).
    { change (g_bytes (emit1 B_return_local 0 g)) with (g_bytes g ++ [num B_return_local]) in H. rewrite S2 in H.
      destruct (o_bc x); try discriminate.
      - destruct Hb as [_ Hb]. rewrite Hb in H. cbn in H. congruence.
      - destruct Hb as (_ & -> & _). cbn in H. congruence.
      - destruct Hb as (_ & -> & _). cbn in H. congruence. }
    subst t. eapply Done; eauto; [cbn [triv_code]; rewrite Eo; auto|unfold max_ctx; lia]. }
  cbn [Base.bind] in H. discriminate.
Qed.

Ltac by_op H := inversion H; subst;
  try match goal with t : text |- _ => destruct (send_bc_cases (nargs t)) as [Es | [Es | [Es | Es]]]; rewrite ?Es in * end;
  try discriminate.
Lemma popfld_op C ls (A : allow) o b bo : enc_op C ls A o b bo -> is_one_of b POP_FIELD = true ->
  exists k i, o = OSetFld k i /\
    match b with B_pop_field_0 => k = 0 /\ i = 0 /\ bo = [num b] | B_pop_field_1 => k = 0 /\ i = 1 /\ bo = [num b]
    | _ => b = B_pop_field /\ bo = [num B_pop_field; i; k] end.
Proof. intros H Hb. by_op H; eauto 8. Qed.
Lemma pusharg_op C ls (A : allow) o b bo : enc_op C ls A o b bo -> b = B_push_argument ->
  exists k i, o = OArg k i /\ (k <> 0 -> A k (AVar (VArg i))) /\ bo = [num B_push_argument; i; k].
Proof. intros H Hb. by_op H; eauto 8. Qed.

(** A setter of a field. *)
Lemma triv_set scs g c0 tl h t : rep scs g c0 tl h -> length scs = 1 ->
  assemble_trivial false (max_ctx scs) (emit1 B_return_self 0 g) = Ok (Some t) ->
  triv_bytes scs (emit1 B_return_self 0 g) t.
Proof.
  intros Hr Hs H.
  assert (L0 : lastb 0 (emit1 B_return_self 0 g) = B_return_self) by reflexivity.
  assert (L1 : lastb 1 (emit1 B_return_self 0 g) = lastb 0 g).
  { unfold lastb. simpl. destruct (g_last g); reflexivity. }
  assert (L2 : lastb 2 (emit1 B_return_self 0 g) = lastb 1 g).
  { unfold lastb. simpl. destruct (g_last g) as [|? [|]]; reflexivity. }
  unfold assemble_trivial in H. unfold last_is at 1 in H. rewrite L0 in H. cbn [is Base.bind] in H.
  change (is B_return_self B_return_local) with false in H. cbn [Base.bind] in H.
  unfold assemble_field_setter, last_one_of, last_is in H. rewrite L1, L2 in H.
  change (g_bytes (emit1 B_return_self 0 g)) with (g_bytes g ++ [num B_return_self]) in H. rewrite app_length in H. cbn [length] in H.
  destruct (is_one_of (lastb 0 g) POP_FIELD) eqn:E1; [|discriminate]. cbn [negb] in H.
  destruct (is (lastb 1 g) B_push_argument) eqn:E2; [|discriminate]. cbn [negb] in H. apply is_eq in E2.
  destruct (last_split _ _ _ _ _ _ Hr) as (x & tl1 & -> & Ex); [intros E; rewrite E in E1; discriminate|].
  destruct (last_split2 _ _ _ _ _ _ _ Hr) as (y & tl2 & -> & Ey); [congruence|].
  pose proof (r_tl _ _ _ _ _ _ Hr) as Ht. inversion Ht as [|? ? Hx Ht1]; subst. inversion Ht1 as [|? ? Hy Ht2]; subst.
  rewrite <- Ex in *. rewrite E2 in *. cbn [blen] in H.
  destruct (pusharg_op _ _ _ _ _ _ Hy Ey) as (k & a & Ea & Hk & Hya).
  destruct (popfld_op _ _ _ _ _ _ Hx E1) as (k2 & f & Ef & Hxf).
  destruct (length (g_bytes g) + 1 =? 1 + blen (o_bc x) + 3) eqn:El; [|discriminate]. apply Nat.eqb_eq in El. cbn [negb] in H.
  destruct (r_enc _ _ _ _ _ _ Hr) as (bs0 & P & He & Hb). rewrite !obytes_cons, Hya in Hb.
  assert (Ebs : g_bytes g = [num B_push_argument; a; k] ++ o_bs x).
  { rewrite Hb in El. rewrite !app_length in El. cbn [length] in El. rewrite (len_op _ _ _ _ _ _ _ Hx) in El.
    assert (E0 : bs0 = []) by (apply length_zero_iff_nil; lia).
    assert (E0' : obytes tl2 = []) by (apply length_zero_iff_nil; lia).
    rewrite Hb, E0, E0'. reflexivity. }
  assert (Hk0 : k = 0).
  { destruct k as [|k]; auto. destruct (Hk ltac:(lia)) as [_ (sc & Hn & _)].
    assert (S k < length scs) by (apply nth_error_Some; congruence). lia. }
  subst k. rewrite Ebs in H.
  assert (Hres : t = TFldW f a /\ k2 = 0).
  { destruct (o_bc x); try discriminate.
    - destruct Hxf as [_ Hxf]. rewrite Hxf in H. cbn in H. destruct k2; [cbn in H; split; congruence|discriminate].
    - destruct Hxf as (-> & -> & Hxf). rewrite Hxf in H. cbn in H. split; congruence.
    - destruct Hxf as (-> & -> & Hxf). rewrite Hxf in H. cbn in H. split; congruence. }
  destruct Hres as [-> ->].
  exists [(ORetSelf, B_return_self, [num B_return_self]); x; y].
  split; [change (g_bytes (emit1 B_return_self 0 g)) with (g_bytes g ++ [num B_return_self]); rewrite Ebs; unfold obytes; cbn [rev map concat app]; rewrite Hya; cbn; reflexivity|].
  split; [constructor; [constructor|constructor; [exact Hx|constructor; [exact Hy|constructor]]]|].
  split; [cbn [triv_code opcode rev map app o_op fst]; unfold opcode; cbn [rev map app]; rewrite Ea, Ef; reflexivity|auto].
Qed.
Lemma triv_self scs g c0 tl h pref d p g' t : rep scs g c0 tl h -> length scs = 1 ->
  h = 0 \/ h = 1 /\ code c0 tl = pref ++ d /\ typ d 0 = Some (1, p) ->
  emit_return_self g = Ok g' -> assemble_trivial false (max_ctx scs) g' = Ok (Some t) -> triv_bytes scs g' t.
Proof.
  intros Hr Hs Hh H Ht. unfold emit_return_self in H. destruct (optimize_dup_pop_pop g) as [[b g1]|] eqn:E; [|discriminate].
  cbn [Base.bind snd] in H. injection H as <-. destruct Hh as [-> | (-> & Hc & Hd)].
  - destruct (no_opt _ _ _ _ _ _ _ Hr E) as [-> ->]. eapply triv_set; eauto.
  - pose proof (dup_pop_pop _ _ _ _ _ _ _ _ Hr E) as Hp. destruct b; [|subst g1; eapply triv_set; eauto].
    destruct (popped_rep _ _ _ _ _ _ _ _ _ _ Hr Hc Hd Hp) as (d' & c1 & tl1 & _ & P2 & _). eapply triv_set; eauto.
Qed.

Lemma method_triv ret period rho : match ret with Some e => ok_src e | None => true end = true ->
  forall ss, forallb ok_src ss = true ->
  forall scs g c0 tl g' scs' t, st_ok scs rho -> length scs = 1 -> rep scs g c0 tl 0 -> (code c0 tl = [] -> g_lits g = []) ->
  gen_method_body ce ss ret period (g, scs) = Ok (g', scs') ->
  assemble_trivial false (max_ctx scs') g' = Ok (Some t) -> triv_bytes scs' g' t.
Proof.
  intros Hokr ss. induction ss as [|e ss IH]; intros Hok scs g c0 tl g' scs' t Hst Hs Hr Hlits H Ht.
  - assert (Hse : (g1 <- emit_return_self g ;; Ok (g1, scs)) = Ok (g', scs') -> triv_bytes scs' g' t).
    { intros H'. destruct (emit_return_self g) as [g1|] eqn:E; [|discriminate]. cbn [Base.bind] in H'. injection H' as <- <-.
      eapply (triv_self _ _ _ _ _ [] [] 0); eauto. }
    assert (He : forall e, ret = Some e -> (c <- gen ce e (g, scs) ;; g1 <- emit_return_local (fst c) ;; Ok (g1, snd c)) = Ok (g', scs') ->
      triv_bytes scs' g' t).
    { intros e -> H'. destruct (gen ce e (g, scs)) as [[g1 scs1]|] eqn:E; [|discriminate]. cbn [Base.bind fst snd] in H'.
      destruct (emit_return_local g1) as [g2|] eqn:E2; [|discriminate]. cbn [Base.bind] in H'. injection H' as <- <-.
      destruct (gen_all ce e Hokr _ _ _ _ _ _ _ _ Hst Hr E) as (d & c1 & tl1 & R).
      destruct (gs_typ _ _ _ _ _ _ _ _ _ _ _ _ _ R) as (p & Hp).
      assert (Hs1 : length scs1 = 1) by (rewrite (scs_le_length _ _ (gs_le _ _ _ _ _ _ _ _ _ _ _ _ _ R)); auto).
      destruct (return_cases _ _ E2) as [-> | (i & g3 & Ef)]; [|eapply triv_field; eauto].
      eapply triv_value; [apply R|auto| |exact Ht].
      intros v Ev. rewrite (gs_code _ _ _ _ _ _ _ _ _ _ _ _ _ R) in Ev.
      assert (Hdn : d <> []) by (eapply typ_nonnil; eauto).
      destruct (code c0 tl) as [|i l] eqn:Ec; [|destruct l; [destruct d; [congruence|discriminate]|discriminate]].
      apply (gs_const _ _ _ _ _ _ _ _ _ _ _ _ _ R); auto. }
    cbn [gen_method_body fst snd] in H. destruct ret as [e|]; [|apply Hse; auto].
    destruct e; try (eapply He; [reflexivity|exact H]).
    destruct (text_eqb n t_self) eqn:En; [|eapply He; [reflexivity|exact H]]. apply Hse; auto.
  - cbn [forallb] in Hok. apply andb_true_iff in Hok. destruct Hok as [Hoe Hok]. cbn [gen_method_body] in H.
    destruct (gen ce e (g, scs)) as [[g1 scs1]|] eqn:E; [|discriminate]. cbn [Base.bind fst snd] in H.
    destruct (gen_all ce e Hoe _ _ _ _ _ _ _ _ Hst Hr E) as (d & c1 & tl1 & R).
    pose proof (gs_st _ _ _ _ _ _ _ _ _ _ _ _ _ R Hst) as Hst1.
    assert (Hs1 : length scs1 = 1) by (rewrite (scs_le_length _ _ (gs_le _ _ _ _ _ _ _ _ _ _ _ _ _ R)); auto).
    destruct (gs_typ _ _ _ _ _ _ _ _ _ _ _ _ _ R) as (p & Hp).
    assert (Hm : (g2 <- emit_pop g1 ;; gen_method_body ce ss ret period (g2, scs1)) = Ok (g', scs') -> triv_bytes scs' g' t).
    { intros H'. destruct (emit_pop g1) as [g2|] eqn:Ep; [|discriminate]. cbn [Base.bind] in H'.
      destruct (emit_pop_ok _ _ _ _ _ _ _ _ _ _ (gs_rep _ _ _ _ _ _ _ _ _ _ _ _ _ R) (gs_code _ _ _ _ _ _ _ _ _ _ _ _ _ R) Hp Ep) as (d' & c2 & tl2 & P1 & P2 & P3 & P4 & P5 & P6).
      eapply IH; [exact Hok|exact Hst1|exact Hs1|exact P2| |exact H'|exact Ht].
      rewrite P1. intros E0. apply app_eq_nil in E0. destruct E0. contradiction. }
    destruct ss as [|e2 ss]; [|apply Hm; exact H]. destruct ret as [r|]; [apply Hm; exact H|].
    destruct period; [apply Hm; exact H|].
    destruct (emit_return_self g1) as [g2|] eqn:E2; [|discriminate]. cbn [Base.bind] in H. injection H as <- <-.
    eapply (triv_self _ _ _ _ 1 (code c0 tl) d p); [apply R|auto| |exact E2|exact Ht].
    right. split; auto. split; [apply R|auto].
Qed.

(** The code of a trivial method as the virtual machine gets it. *)
Lemma compiled_triv p ps ls ss ret period m t :
  forallb ok_src ss = true -> match ret with Some e => ok_src e | None => true end = true ->
  in_layer t_self ls = None ->
  compile_with ce p ps ls ss ret period = Ok m -> me_triv m = Some t ->
  exists C A body P, map fst C = [map snd (me_locals m)] /\
    enc fields C (me_lits m) A 0 body (me_bytes m) [] P /\ (2 <= me_max m)%Z /\ triv_code t body /\
    match t with TGlob _ k | TFld _ k => k = 0 | _ => True end.
Proof.
  intros Hok Hokr Hself H Htr. unfold compile_with, gen_method in H.
  destruct (new_scope (t_self :: ps) ls) as [sc|] eqn:En; [|discriminate]. cbn [Base.bind] in H.
  assert (Esc : sc_args sc = t_self :: ps /\ sc_locals sc = plain_locals ls /\ sc_out sc = []).
  { unfold new_scope in En. destruct (no_dup (t_self :: ps) && no_dup (map fst ls)); [|discriminate]. injection En as <-. auto. }
  destruct Esc as (Ea & Elo & Eo).
  set (rho := [Level [ls] (t_self :: ps)]).
  assert (Hst : st_ok [sc] rho).
  { split.
    - discriminate.
    - constructor; [|constructor]. split; [simpl; auto|]. exists ls, []. rewrite app_nil_r. split; [reflexivity|]. split; auto.
    - split; [|exact Logic.I]. rewrite Eo. intros _ i [].
    - split; [|exact Logic.I]. intros Hn. congruence. }
  assert (Hr0 : rep [sc] (mg_new p) [] [] 0).
  { split; try reflexivity; try constructor.
    - exists [], []. split; [constructor|reflexivity].
    - exists 0. split; reflexivity.
    - reflexivity.
    - reflexivity. }
  destruct (gen_method_body ce ss ret period (mg_new p, [sc])) as [[g1 scs1]|] eqn:Eg; [|discriminate]. cbn [Base.bind] in H.
  destruct (method_ok ce ret period rho) with (ss := ss) (scs := [sc]) (g := mg_new p) (c0 := @nil item) (tl := @nil oper) (g' := g1) (scs' := scs1)
    as (body & h & F & Hle & _ & _); auto.
  { unfold self_arg, rho. cbn [resolve]. unfold in_level. cbn [in_layers lv_layers lv_args]. rewrite Hself. reflexivity. }
  inversion Hle as [|? sc' ? scs2 Hsc Hscs]; subst. inversion Hscs; subst. clear Hscs.
  cbn [assemble] in H. destruct (assemble_trivial false (max_ctx [sc']) g1) as [tr|] eqn:Et; [|discriminate]. cbn [Base.bind] in H.
  assert (Em : m = Meth 0 (g_bytes g1) (g_lits g1) (sc_locals sc') (length (sc_args sc')) (g_loops g1) (g_max g1 + 2 + 2) tr).
  { destruct tr; [congruence|]. destruct (forallb (fun b => b <=? 255) (g_bytes g1)); [congruence|discriminate]. } clear H.
  subst m. cbn [me_triv] in Htr. subst tr. cbn [me_locals me_lits me_bytes me_max].
  destruct F as [_ (q & _ & F3)].
  destruct (method_triv ret period rho Hokr ss Hok [sc] (mg_new p) [] [] g1 [sc'] t Hst eq_refl Hr0 (fun _ => eq_refl) Eg Et) as (tl & T1 & T2 & T3 & T4).
  exists (cx_of [sc']), (A_of [sc']), (opcode tl), []. split; [reflexivity|].
  split; [rewrite T1; apply enc_ops; auto|]. split; [lia|]. split; auto.
Qed.
End Triv.
