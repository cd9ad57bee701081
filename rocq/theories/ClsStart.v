(** The classes of a conforming library after start-up. *)
From Coq Require Import Bool String List Ascii Arith Lia.
From Verif Require Import Base LexModel ParseModel ClsModel ClsSpec ClsGrow ClsHier ClsDecl.
Import ListNotations.

Section Start.
Context {M : Type}.
Variable sel : M -> text.
Variable is_prim : M -> bool.
Variable known : text -> option (list (bool * text)).
Variable avoid : bool.
Variable path : list (text -> option (file M)).
Variable Hname : avoid = false \/ files_named path.
Variable Hconf : conforming path.
Variable Hknown : forall n, is_block n = true -> known n = None.

Notation comp := (comp M).
Notation univ := (univ M).
Notation load_class := (load_class M sel is_prim known avoid path).
Notation load_file := (load_file M sel is_prim avoid path).
Notation glob := (glob M).
Notation described := (described is_prim path).
Notation expected := (expected sel is_prim known).
Notation plain := (plain is_prim known).
Notation bare := (bare sel).
Notation D := (D sel is_prim known path).
Notation globals_ok := (globals_ok sel is_prim known path).
Notation base := (@base M).

(** * The system classes *)
Definition sysids : list (text * nat) :=
  [(str "Object", 3); (str "Class", 7); (str "Metaclass", 1); (str "Nil", 5); (str "Array", 9);
   (str "Method", 13); (str "String", 19); (str "Symbol", 11); (str "Integer", 15);
   (str "Primitive", 17); (str "Double", 21)].
Lemma sysids_order : map snd sysids = load_order sys0.
Proof. reflexivity. Qed.

Lemma tget_In : forall A (l : list (text * A)) n v, tget l n = Some v -> In (n, v) l.
Proof.
  intros A l n v. induction l as [|[m w] r IH]; cbn [tget]; [discriminate|].
  destruct (text_eqb m n) eqn:E; intros H.
  - apply text_eqb_eq in E. left. congruence.
  - right. auto.
Qed.
Definition mem (n : text) (l : list text) : bool := existsb (text_eqb n) l.
Lemma mem_In : forall n l, mem n l = true <-> In n l.
Proof.
  intros n l. unfold mem. rewrite existsb_exists. split.
  - intros (m & H & E). apply text_eqb_eq in E. now subst m.
  - intros H. exists n. split; [exact H|apply text_eqb_refl].
Qed.
Lemma mem_not : forall n l, mem n l = false <-> ~ In n l.
Proof. intros n l. rewrite <- mem_In. destruct (mem n l); split; congruence. Qed.
Definition mem2 (p : text * nat) (l : list (text * nat)) : bool :=
  existsb (fun q => text_eqb (fst p) (fst q) && Nat.eqb (snd p) (snd q)) l.
Lemma mem2_In : forall n c l, mem2 (n, c) l = true -> In (n, c) l.
Proof.
  intros n c l H. apply existsb_exists in H. destruct H as ([m d] & H & E). cbn [fst snd] in E.
  apply andb_true_iff in E. destruct E as [E F]. apply text_eqb_eq in E. apply Nat.eqb_eq in F. now subst.
Qed.
Lemma glob_base_in : forall n v, glob base n = Some v -> exists c, v = GCls c /\ In (n, c) sysids.
Proof.
  intros n v H. unfold ClsModel.glob in H.
  destruct (tget (u_globs base) n) as [o|] eqn:E; [|discriminate]. subst o || (destruct o as [w|]; [|discriminate]).
  assert (w = v) by congruence. subst w. apply tget_In in E.
  assert (F : forallb (fun p => match snd p with Some (GCls c) => mem2 (fst p, c) sysids | _ => false end)
                (u_globs base) = true) by (vm_compute; reflexivity).
  rewrite forallb_forall in F. specialize (F _ E). cbn [fst snd] in F.
  destruct v as [c|]; [|discriminate]. exists c. split; [reflexivity|now apply mem2_In].
Qed.
Definition is_gcls (o : option gval) (c : nat) : bool :=
  match o with Some (GCls d) => Nat.eqb d c | _ => false end.
Lemma in_glob_base : forall n c, In (n, c) sysids -> glob base n = Some (GCls c).
Proof.
  assert (F : forallb (fun p => is_gcls (glob base (fst p)) (snd p)) sysids = true) by (vm_compute; reflexivity).
  intros n c H. rewrite forallb_forall in F. specialize (F _ H). cbn [fst snd] in F. unfold is_gcls in F.
  destruct (glob base n) as [[d|]|]; try discriminate. apply Nat.eqb_eq in F. now subst d.
Qed.
(** What the allocation left. *)
Lemma base_at : forall n c, In (n, c) sysids -> exists k mk, oddc c /\
  nth_error (u_cls base) c = Some k /\ nth_error (u_cls base) (pred c) = Some mk /\
  k_class k = Some (pred c) /\ k_name k = Some n /\ k_table k = None /\ k_table mk = None.
Proof.
  assert (F : forallb (fun p => let c := snd p in Nat.odd c &&
    match nth_error (u_cls base) c, nth_error (u_cls base) (pred c) with
    | Some k, Some mk => match k_class k, k_name k, k_table k, k_table mk with
        | Some d, Some n, None, None => Nat.eqb d (pred c) && text_eqb n (fst p)
        | _, _, _, _ => false end
    | _, _ => false end) sysids = true) by (vm_compute; reflexivity).
  intros n c H. rewrite forallb_forall in F. specialize (F _ H). cbn [fst snd] in F. 
  apply andb_true_iff in F. destruct F as [O F]. apply Nat.odd_spec in O. destruct O as (q & O).
  destruct (nth_error (u_cls base) c) as [k|]; [|discriminate].
  destruct (nth_error (u_cls base) (pred c)) as [mk|]; [|discriminate].
  exists k, mk. split; [exists q; lia|]. split; [reflexivity|]. split; [reflexivity|].
  destruct (k_class k) as [d|]; [|discriminate]. destruct (k_name k) as [m|]; [|discriminate].
  destruct (k_table k); [discriminate|]. destruct (k_table mk); [discriminate|].
  apply andb_true_iff in F. destruct F as [E F]. apply Nat.eqb_eq in E. apply text_eqb_eq in F. subst. auto.
Qed.
Lemma sys_always : forall n c, In (n, c) sysids -> system_name n /\ always n = true /\ is_block n = false.
Proof.
  assert (F : forallb (fun p => mem (fst p) (map fst system_supers) && (always (fst p) && negb (is_block (fst p)))) sysids = true)
    by (vm_compute; reflexivity).
  intros n c H. rewrite forallb_forall in F. specialize (F _ H). cbn [fst] in F.
  apply andb_true_iff in F. destruct F as [E F]. apply andb_true_iff in F. destruct F as [F G].
  apply negb_true_iff in G. split; [now apply mem_In|auto].
Qed.
Lemma system_in : forall n, system_name n -> exists c, In (n, c) sysids.
Proof.
  assert (F : forallb (fun m => mem m (map fst sysids)) (map fst system_supers) = true) by (vm_compute; reflexivity).
  intros n H. rewrite forallb_forall in F. apply F, mem_In, in_map_iff in H. destruct H as ([m c] & E & H).
  cbn [fst] in E. subst m. now exists c.
Qed.
Lemma always_sys : forall n, always n = true -> (exists c, In (n, c) sysids) \/ n = str "True" \/ n = str "False".
Proof.
  intros n H. unfold always in H. apply existsb_exists in H. destruct H as (m & Hm & E).
  apply text_eqb_eq in E. subst m. apply in_app_or in Hm. destruct Hm as [Hm|Hm].
  - left. now apply system_in.
  - right. cbn [In] in Hm. destruct Hm as [Hm|[Hm|[]]]; auto.
Qed.

(** [done]: the system classes loaded so far. *)
Record sys_inv (done : list text) (u : univ) : Prop := {
  s_globs : u_globs u = u_globs base;
  s_inv : Inv u;
  s_done : forall n c, In (n, c) sysids -> In n done ->
    exists d, find M path n = Some (Good d) /\ described u n c d (expected n d);
  s_todo : forall n c, In (n, c) sysids -> ~ In n done ->
    nth_error (u_cls u) c = nth_error (u_cls base) c /\
    nth_error (u_cls u) (pred c) = nth_error (u_cls base) (pred c) }.

Lemma set_table_spec : forall i t b u k, nth_error (u_cls u) i = Some k -> k_table k = None ->
  exists u' k', set_table M i t b u = (Ok tt, u') /\ u_globs u' = u_globs u /\
    (forall j, j <> i -> nth_error (u_cls u') j = nth_error (u_cls u) j) /\
    nth_error (u_cls u') i = Some k' /\ k_name k' = k_name k /\ k_class k' = k_class k /\ 
    k_prims k' = b /\ (forall s, tab k' s = tget t s).
Proof.
  intros i t b u k H T. unfold set_table. erewrite andthen_step by (apply get_some; exact H). rewrite T.
  destruct t as [|e t]; unfold edit; (eexists; eexists; split; [reflexivity|]);
    cbn [u_globs u_cls]; (split; [reflexivity|]);
    (split; [intros j J; rewrite nth_upd; replace (Nat.eqb i j) with false; [reflexivity|symmetry; apply Nat.eqb_neq; congruence]|]);
    rewrite nth_upd, Nat.eqb_refl, H; cbn [option_map]; (split; [reflexivity|]); cbn [k_name k_class k_prims];
    repeat (split; [reflexivity|]); intros s; unfold tab; cbn [k_table]; rewrite ?T; reflexivity.
Qed.
Lemma set_fields_spec : forall i fs u k, nth_error (u_cls u) i = Some k ->
  exists u' k', set_fields M i fs u = (Ok tt, u') /\ u_globs u' = u_globs u /\
    (forall j, j <> i -> nth_error (u_cls u') j = nth_error (u_cls u) j) /\
    nth_error (u_cls u') i = Some k' /\ k_name k' = k_name k /\ k_class k' = k_class k /\ 
    k_prims k' = k_prims k /\ k_fields k' = Some fs /\ k_inst k' = length fs /\ (forall s, tab k' s = tab k s).
Proof.
  intros i fs u k H. unfold set_fields, edit. eexists. eexists. split; [reflexivity|].
  cbn [u_globs u_cls]. split; [reflexivity|].
  split; [intros j J; rewrite nth_upd; replace (Nat.eqb i j) with false; [reflexivity|symmetry; apply Nat.eqb_neq; congruence]|].
  rewrite nth_upd, Nat.eqb_refl, H. cbn [option_map]. split; [reflexivity|]. repeat split.
Qed.

Lemma assemble_system_spec : forall n c sup d u k mk fs cfs,
  In (n, c) sysids -> oddc c ->
  nth_error (u_cls u) c = Some k -> nth_error (u_cls u) (pred c) = Some mk ->
  k_class k = Some (pred c) -> k_name k = Some n -> k_table k = None -> k_table mk = None ->
  (fs, cfs) = match sup with Some (_, fs, cfs) => (fs, cfs) | None => ([], []) end ->
  declares path d (fs ++ c_fields M d) (cfs ++ c_class_fields M d) ->
  exists u', assemble_system M sel is_prim c sup d u = (Ok c, u') /\ u_globs u' = u_globs u /\
    (forall j, j <> c -> j <> pred c -> nth_error (u_cls u') j = nth_error (u_cls u) j) /\
    described u' n c d (bare d).
Proof.
  intros n c sup d u k mk fs cfs Hin O Hk Hm Hc Hn T Tm Es Hd.
  assert (N := odd_pred c O). unfold assemble_system. rewrite <- Es.
  destruct (set_table_spec c (methods_table M sel c (c_methods M d)) (existsb is_prim (c_methods M d)) u k Hk T)
    as (u1 & k1 & E1 & G1 & O1 & K1 & A1 & B1 & P1 & T1).
  erewrite andthen_step by exact E1.
  destruct (set_fields_spec c (fs ++ c_fields M d) u1 k1 K1) as (u2 & k2 & E2 & G2 & O2 & K2 & A2 & B2 & P2 & F2 & I2 & T2).
  erewrite andthen_step by exact E2. erewrite andthen_step by (apply get_some; exact K2).
  rewrite B2, B1, Hc. erewrite andthen_step by reflexivity.
  assert (M2 : nth_error (u_cls u2) (pred c) = Some mk) by (rewrite O2, O1 by exact N; exact Hm).
  destruct (set_table_spec (pred c) (methods_table M sel (pred c) (c_class_methods M d)) (existsb is_prim (c_class_methods M d)) u2 mk M2 Tm)
    as (u3 & m3 & E3 & G3 & O3 & K3 & A3 & B3 & P3 & T3).
  erewrite andthen_step by exact E3.
  destruct (set_fields_spec (pred c) (cfs ++ c_class_fields M d) u3 m3 K3) as (u4 & m4 & E4 & G4 & O4 & K4 & A4 & B4 & P4 & F4 & I4 & T4).
  erewrite andthen_step by exact E4.
  exists u4. split; [reflexivity|]. split; [congruence|].
  split; [intros j J1 J2; rewrite O4, O3, O2, O1 by assumption; reflexivity|].
  exists (fs ++ c_fields M d), (cfs ++ c_class_fields M d), k2, m4. split; try assumption; try congruence.
  - rewrite O4, O3 by congruence. exact K2.
  - intros X. exfalso. apply X. now apply (sys_always n c).
  - intros s. rewrite T2, T1. apply methods_table_get.
  - intros s. rewrite T4, T3. apply methods_table_get.
Qed.

Lemma expected_sys : forall n d b s, always n = true -> is_block n = false ->
  plain n d true (bare d) b s = expected n d b s.
Proof.
  intros n d b s A B. unfold ClsSpec.expected, ClsDecl.plain, ClsDecl.bare. rewrite A. cbn [orb].
  unfold is_block in B. apply orb_false_iff in B. destruct B as [B H3]. apply orb_false_iff in B. destruct B as [H1 H2].
  unfold block_value. rewrite H1, H2, H3. cbn [andb]. now destruct b.
Qed.

Lemma system_step : forall fuel n c s done u u', sys_inv done u -> In (n, c) sysids -> ~ In n done ->
  In (n, s) system_supers -> s = str "nil" \/ In s done /\ system_name s ->
  load_system_class M sel is_prim known avoid path fuel 1 c u = (Ok tt, u') -> sys_inv (n :: done) u'.
Proof.
  intros fuel n c s done u u' [SG SI SD ST] Hin Hnd Hsup Hs H.
  assert (V : valid c u).
  { apply (i_glob u SI n). unfold ClsModel.glob. rewrite SG. exact (in_glob_base n c Hin). }
  assert (Iu' : Inv u').
  { destruct (keeps_load_system sel is_prim known avoid path fuel c u SI V) as (A & _). now rewrite H in A. }
  destruct (base_at n c Hin) as (k & mk & O & Bk & Bm & Kc & Kn & T & Tm).
  destruct (ST n c Hin Hnd) as [Sk Sm]. rewrite Bk in Sk. rewrite Bm in Sm.
  destruct (sys_always n c Hin) as (Hsys & Ha & Hb).
  unfold load_system_class in H.
  rewrite (andthen_step _ _ _ _ _ _ _ (get_some c u k Sk)) in H.
  rewrite Kn in H. cbn [the] in H. rewrite (andthen_step _ _ _ _ _ _ _ (eq_refl : ret M n u = (Ok n, u))) in H.
  apply andthen_ok in H. destruct H as (r & u1 & Hf & H).
  destruct (Hconf n s Hsup) as (d & Hfd & Hsn).
  unfold ClsModel.load_file in Hf. rewrite Hfd in Hf.
  apply andthen_ok in Hf. destruct Hf as (i & u2 & Hc & Hf). cbn [compile] in Hc.
  apply andthen_ok in Hc. destruct Hc as (sup & u3 & Hsc & Hc).
  assert (Q : u3 = u /\ exists fs cfs, (fs, cfs) = match sup with Some (_, fs, cfs) => (fs, cfs) | None => ([], []) end /\
     declares path d (fs ++ c_fields M d) (cfs ++ c_class_fields M d)).
  { unfold superclass in Hsc. change (match c_super M d with Some n => n | None => t_Object end) with (super_name d) in Hsc.
    rewrite Hsn in Hsc. destruct Hs as [->|[Hs1 Hs2]].
    - change (text_eqb (str "nil") t_nil) with true in Hsc. unfold ret in Hsc.
      assert (sup = None /\ u3 = u) as [-> ->] by (split; congruence). split; [reflexivity|].
      exists [], []. split; [reflexivity|]. cbn [app]. now apply dec_top.
    - assert (Ns : s <> str "nil").
      { intros ->. apply mem_In in Hs2. vm_compute in Hs2. discriminate. }
      fold t_nil in Ns. apply text_eqb_neq in Ns as Ns'. rewrite Ns' in Hsc.
      assert (Is := system_in s Hs2).
      destruct Is as (cs & Is). destruct (SD s cs Is Hs1) as (ds & Fs & fi & fc & sk & smk & Hd).
      apply andthen_ok in Hsc. destruct Hsc as (v & u4 & Hl & Hsc).
      assert (v = Some (GCls cs) /\ u4 = u) as [-> ->].
      { destruct fuel as [|fuel]; cbn [ClsModel.load_class] in Hl; [unfold fail in Hl; congruence|].
        assert (Gs : glob u s = Some (GCls cs)).
        { unfold ClsModel.glob. rewrite SG. exact (in_glob_base s cs Is). }
        rewrite Gs in Hl. split; congruence. }
      rewrite (andthen_step _ _ _ _ _ _ _ (get_some cs u sk (d_k _ _ _ _ _ _ _ _ _ _ _ Hd))) in Hsc.
      rewrite (d_fi _ _ _ _ _ _ _ _ _ _ _ Hd), (d_class _ _ _ _ _ _ _ _ _ _ _ Hd) in Hsc. cbn [the] in Hsc.
      rewrite (andthen_step _ _ _ _ _ _ _ (eq_refl : ret M fi u = (Ok fi, u))) in Hsc.
      rewrite (andthen_step _ _ _ _ _ _ _ (eq_refl : ret M (pred cs) u = (Ok (pred cs), u))) in Hsc.
      rewrite (andthen_step _ _ _ _ _ _ _ (get_some (pred cs) u smk (d_mk _ _ _ _ _ _ _ _ _ _ _ Hd))) in Hsc.
      rewrite (d_fc _ _ _ _ _ _ _ _ _ _ _ Hd) in Hsc. cbn [the] in Hsc.
      rewrite (andthen_step _ _ _ _ _ _ _ (eq_refl : ret M fc u = (Ok fc, u))) in Hsc. unfold ret in Hsc.
      assert (sup = Some (cs, fi, fc) /\ u3 = u) as [-> ->] by (split; congruence).
      split; [reflexivity|]. exists fi, fc. split; [reflexivity|].
      eapply dec_sub; [rewrite Hsn; exact Ns|rewrite Hsn; exact Fs|exact (d_dec _ _ _ _ _ _ _ _ _ _ _ Hd)]. }
  destruct Q as (-> & fs & cfs & Es & Hdec).
  destruct (assemble_system_spec n c sup d u k mk fs cfs Hin O Sk Sm Kc Kn T Tm Es Hdec) as (w & Ew & Gw & Ow & Dw).
  assert (i = c /\ u2 = w) as [-> ->] by (split; congruence).
  assert (Dw' := Dw). destruct Dw' as (fi & fc & wk & wmk & Rw).
  rewrite (andthen_step _ _ _ _ _ _ _ (get_some c w wk (d_k _ _ _ _ _ _ _ _ _ _ _ Rw))) in Hf.
  rewrite (d_name _ _ _ _ _ _ _ _ _ _ _ Rw) in Hf. cbn [the] in Hf.
  rewrite (andthen_step _ _ _ _ _ _ _ (eq_refl : ret M n w = (Ok n, w))) in Hf.
  rewrite text_eqb_refl in Hf.
  rewrite (andthen_step _ _ _ _ _ _ _ (eq_refl : ret M tt w = (Ok tt, w))) in Hf. unfold ret in Hf.
  assert (r = Some c /\ u1 = w) as [-> ->] by (split; congruence).
  rewrite (andthen_step _ _ _ _ _ _ _ (eq_refl : ret M tt w = (Ok tt, w))) in H.
  destruct (maybe_spec is_prim known path w n c d (bare d) true Dw) as (x & Ex & Gx & Lx & Ox & Dx).
  assert (u' = x) as -> by congruence.
  assert (Oth : forall n' c', In (n', c') sysids -> n' <> n -> 
    nth_error (u_cls x) c' = nth_error (u_cls u) c' /\ nth_error (u_cls x) (pred c') = nth_error (u_cls u) (pred c')).
  { intros n' c' Hin' Nn. destruct (base_at n' c' Hin') as (k' & mk' & O' & Bk' & _ & _ & Kn' & _).
    assert (Nc : c' <> c) by (intros ->; congruence).
    destruct O as (p & Ep). destruct O' as (q & Eq).
    split; (rewrite Ox by lia; apply Ow; lia). }
  split.
  - congruence.
  - exact Iu'.
  - intros n' c' Hin' [<-|Hd'].
    + assert (c' = c).
      { assert (A := in_glob_base _ _ Hin). assert (B := in_glob_base _ _ Hin'). congruence. }
      subst c'. exists d. split; [exact Hfd|]. eapply described_ext; [|exact Dx]. intros b s'. now apply expected_sys.
    + assert (Nn : n' <> n) by (intros ->; contradiction).
      destruct (SD n' c' Hin' Hd') as (d' & F' & D'). exists d'. split; [exact F'|].
      destruct (Oth n' c' Hin' Nn) as [A B]. eapply described_same; eauto.
  - intros n' c' Hin' Hnd'. assert (Nn : n' <> n) by (intros ->; apply Hnd'; now left).
    destruct (Oth n' c' Hin' Nn) as [A B]. rewrite A, B. apply (ST n' c' Hin'). intros X. apply Hnd'. now right.
Qed.

Lemma load_all_ok : forall fuel u, load_all M sel is_prim known avoid path fuel 1 (load_order sys0) base = (Ok tt, u) ->
  sys_inv (rev (map fst sysids)) u.
Proof.
  intros fuel u H.
  assert (B : sys_inv [] base).
  { split; [reflexivity|apply base_inv|intros n c _ []|intros; now split]. }
  rewrite <- sysids_order in H.
  assert (W : forall l done w, (forall n c l1 l2, l = l1 ++ (n, c) :: l2 ->
      In (n, c) sysids /\ ~ In n (rev (map fst l1) ++ done) /\ exists s, In (n, s) system_supers /\
      (s = str "nil" \/ In s (rev (map fst l1) ++ done) /\ system_name s)) ->
    sys_inv done w -> load_all M sel is_prim known avoid path fuel 1 (map snd l) w = (Ok tt, u) ->
    sys_inv (rev (map fst l) ++ done) u).
  { clear H B. induction l as [|[n c] r IH]; intros done w Hl I H; cbn [map load_all rev] in *.
    - unfold ret in H. assert (w = u) by congruence. now subst w.
    - apply andthen_ok in H. destruct H as ([] & w1 & H1 & H).
      destruct (Hl n c [] r eq_refl) as (A1 & A2 & s & A3 & A4). cbn [map rev app] in A2, A4.
      assert (I1 := system_step fuel n c s done w w1 I A1 A2 A3 A4 H1).
      cbn [fst]. rewrite <- app_assoc. cbn [app]. apply (IH (n :: done) w1); [|exact I1|exact H].
      intros n' c' l1 l2 E. destruct (Hl n' c' ((n, c) :: l1) l2) as (C1 & C2 & s' & C3 & C4); [now rewrite E|].
      cbn [map rev fst] in C2, C4. rewrite <- app_assoc in C2, C4. cbn [app] in C2, C4. eauto. }
  rewrite <- (app_nil_r (rev (map fst sysids))). apply (W sysids [] base); [|exact B|exact H].
  clear. intros n c l1 l2 E.
  assert (In1 : In (n, c) sysids) by (rewrite E; apply in_or_app; right; now left).
  split; [exact In1|]. rewrite app_nil_r.
  assert (Cases : forall p, In p (map (fun k => (firstn k sysids, nth_error sysids k)) (seq 0 11)) ->
     match snd p with
     | Some (n, c) => ~ In n (rev (map fst (fst p))) /\ exists s, In (n, s) system_supers /\
         (s = str "nil" \/ In s (rev (map fst (fst p))) /\ system_name s)
     | None => True
     end).
  { assert (F : forallb (fun p : list (text * nat) * option (text * nat) => match snd p with
       | Some (n, c) => negb (mem n (rev (map fst (fst p)))) &&
           match tget system_supers n with
           | Some s => text_eqb s (str "nil") || (mem s (rev (map fst (fst p))) && mem s (map fst system_supers))
           | None => false end
       | None => true end) (map (fun k => (firstn k sysids, nth_error sysids k)) (seq 0 11)) = true)
       by (vm_compute; reflexivity).
    rewrite forallb_forall in F. intros p Hp. specialize (F p Hp). destruct (snd p) as [[m d]|]; [|exact Logic.I].
    apply andb_true_iff in F. destruct F as [F G]. apply negb_true_iff, mem_not in F. split; [exact F|].
    destruct (tget system_supers m) as [s|] eqn:S; [|discriminate]. exists s. split; [now apply tget_In|].
    apply orb_true_iff in G. destruct G as [G|G]; [left; now apply text_eqb_eq|right].
    apply andb_true_iff in G. destruct G as [G1 G2]. split; now apply mem_In. }
  specialize (Cases (l1, Some (n, c))). cbn [fst snd] in Cases. apply Cases.
  apply in_map_iff. exists (length l1).
  assert (L : length l1 < 11).
  { change 11 with (length sysids). rewrite E, app_length. cbn [length]. lia. }
  split; [|apply in_seq; lia].
  rewrite E. rewrite firstn_app, Nat.sub_diag, firstn_all, firstn_O, app_nil_r.
  f_equal. rewrite nth_error_app2, Nat.sub_diag by lia. reflexivity.
Qed.
End Start.
