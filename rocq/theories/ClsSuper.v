(** The superclass of a class is the class its file names. *)
From Coq Require Import Bool String List Ascii Arith Lia.
From Verif Require Import Base LexModel ParseModel ClsModel ClsSpec ClsGrow ClsEnd ClsHier ClsDecl ClsStart ClsBoot.
Import ListNotations.

Section Super.
Context {M : Type}.
Variable sel : M -> text.
Variable is_prim : M -> bool.
Variable known : text -> option (list (bool * text)).
Variable avoid : bool.
Variable path : list (text -> option (file M)).
Notation comp := (comp M).
Notation univ := (univ M).
Notation load_class := (load_class M sel is_prim known avoid path).
Notation load_file := (load_file M sel is_prim avoid path).
Notation glob := (glob M).

(** * A load does not define a name twice *)
Definition adds (w u : univ) : Prop := only_grown w u /\ u_globs u = u_globs w.
Lemma adds_refl : forall u, adds u u.
Proof. intros u. split; [apply grown_refl|reflexivity]. Qed.
Lemma adds_trans : forall a b c, adds a b -> adds b c -> adds a c.
Proof. intros a b c [A1 A2] [B1 B2]. split; [eapply grown_trans; eauto|congruence]. Qed.
Lemma adds_glob : forall w u n, adds w u -> glob u n = glob w n.
Proof. intros w u n [_ H]. unfold ClsModel.glob. now rewrite H. Qed.

(** Where the work of [superclass] ends: nowhere, or where the loader left off. *)
Definition after (ld : text -> comp (option gval)) (s : text) (u w : univ) : Prop :=
  s = str "nil" /\ w = u \/ s <> str "nil" /\ w = snd (ld s u).
Lemma superclass_after : forall ld o s u, file_super (M := M) (BadBody o) = Some s ->
  after ld s u (snd (superclass M ld o u)).
Proof.
  intros ld o s u H. unfold superclass. fold t_nil.
  assert (E : match o with Some x => x | None => t_Object end = s).
  { destruct o; cbn [file_super] in H; fold t_Object in H; congruence. }
  rewrite E. unfold after. fold t_nil. destruct (text_eqb s t_nil) eqn:T.
  - left. apply text_eqb_eq in T. now split.
  - right. apply text_eqb_neq in T. split; [exact T|]. unfold andthen at 1.
    destruct (ld s u) as [[v|e] u1]; cbn [fst snd]; [|reflexivity].
    destruct v as [[i|l i]|]; try reflexivity.
    unfold andthen. assert (G := grown_get i u1). destruct (get M i u1) as [[k|e] u2]; cbn [fst snd] in *; subst u2; [|reflexivity].
    unfold the. destruct (k_fields k); [|reflexivity]. cbn [ret fst snd]. destruct (k_class k) as [mi|]; [|reflexivity].
    cbn [ret fst snd].
    assert (G := grown_get mi u1). destruct (get M mi u1) as [[mk|e] u2]; cbn [fst snd] in *; subst u2; [|reflexivity].
    now destruct (k_fields mk).
Qed.
Lemma compile_after : forall ld meta f u,
  (file_super f = None /\ snd (compile M sel is_prim meta ld None f u) = u) \/
  exists s w, file_super f = Some s /\ after ld s u w /\ adds w (snd (compile M sel is_prim meta ld None f u)).
Proof.
  intros ld meta f u. destruct f as [d| |o]; cbn [compile].
  - right. assert (E : file_super (M := M) (BadBody (c_super M d)) = Some (super_name d)).
    { unfold super_name. cbn [file_super]. now destruct (c_super M d). }
    assert (A := superclass_after ld (c_super M d) (super_name d) u E).
    exists (super_name d), (snd (superclass M ld (c_super M d) u)). split; [reflexivity|]. split; [exact A|].
    unfold andthen. destruct (superclass M ld (c_super M d) u) as [[sup|e] u1]; cbn [fst snd]; [|apply adds_refl].
    split; [apply grown_assemble|apply assemble_globs].
  - left. now split.
  - right. destruct (file_super (M := M) (BadBody o)) as [s|] eqn:E; [|now destruct o].
    assert (A := superclass_after ld o s u E).
    exists s, (snd (superclass M ld o u)). split; [reflexivity|]. split; [exact A|].
    unfold andthen. destruct (superclass M ld o u) as [[sup|e] u1]; cbn [fst snd]; apply adds_refl.
Qed.
Lemma load_file_after : forall ld meta n u,
  snd (load_file meta ld n None u) = u \/
  exists f s w, find M path n = Some f /\ file_super f = Some s /\ after ld s u w /\ adds w (snd (load_file meta ld n None u)).
Proof.
  intros ld meta n u. unfold ClsModel.load_file. destruct (find M path n) as [f|]; [|now left].
  assert (R : snd (andthen M (compile M sel is_prim meta ld None f) (fun i => andthen M (get M i) (fun k =>
     andthen M (the M (k_name k)) (fun cn => andthen M (if text_eqb n cn then ret M tt else exit M avoid)
       (fun _ => ret M (Some i))))) u) = snd (compile M sel is_prim meta ld None f u)).
  { unfold andthen. destruct (compile M sel is_prim meta ld None f u) as [[i|e] u1]; cbn [fst snd]; [|reflexivity].
    assert (G := grown_get i u1). destruct (get M i u1) as [[k|e] u2]; cbn [fst snd] in *; subst u2; [|reflexivity].
    unfold the. destruct (k_name k) as [cn|]; [|reflexivity]. cbn [ret fst snd].
    destruct (text_eqb n cn); [reflexivity|]. unfold exit. now destruct avoid. }
  rewrite R. destruct (compile_after ld meta f u) as [[_ C]|(s & w & A & B & C)]; [now left|right].
  exists f, s, w. auto.
Qed.
Lemma load_file_globs : forall ld meta n u m v, glob (snd (load_file meta ld n None u)) m = Some v ->
  glob u m = Some v \/
  exists f s, find M path n = Some f /\ file_super f = Some s /\ s <> str "nil" /\ glob (snd (ld s u)) m = Some v.
Proof.
  intros ld meta n u m v H. destruct (load_file_after ld meta n u) as [E|(f & s & w & F & S & A & B)].
  - left. now rewrite E in H.
  - rewrite (adds_glob _ _ _ B) in H. destruct A as [[_ ->]|[N ->]]; [now left|]. right. eauto 8.
Qed.
Lemma maybe_globs : forall r b u, u_globs (snd (maybe_primitives M known r b u)) = u_globs u.
Proof.
  intros [i|] b u; cbn [maybe_primitives]; [|reflexivity].
  unfold andthen. assert (G := grown_get i u). destruct (get M i u) as [[k|e] u2]; cbn [fst snd] in *; subst u2; [|reflexivity].
  unfold the. destruct (k_class k) as [mi|]; [|reflexivity]. cbn [ret fst snd].
  assert (G := grown_get mi u). destruct (get M mi u) as [[mk|e] u2]; cbn [fst snd] in *; subst u2; [|reflexivity].
  destruct (k_prims k || k_prims mk || b); [|reflexivity].
  unfold load_primitives, andthen.
  assert (G := grown_get i u). destruct (get M i u) as [[k'|e] u2]; cbn [fst snd] in *; subst u2; [|reflexivity].
  unfold the. destruct (k_name k') as [n|]; [|reflexivity]. cbn [ret fst snd].
  destruct (known n) as [l|]; [|reflexivity]. destruct (k_class k') as [mi'|]; [|reflexivity]. cbn [ret fst snd].
  assert (I : forall l w, u_globs (snd (install M i mi' n l w)) = u_globs w).
  { clear. induction l as [|[c s] r IH]; intros w; cbn [install]; [reflexivity|]. unfold andthen at 1.
    cbn [add_primitive edit fst snd]. now rewrite IH. }
  apply I.
Qed.

(** A name that a load defines can itself be loaded within the same fuel. *)
Lemma new_settled : forall k meta n u m v, glob u m = None -> glob (snd (load_class k meta n u)) m = Some v ->
  settled (load_class k meta m u).
Proof.
  induction k as [|k IH]; intros meta n u m v G H; [cbn in H; congruence|].
  assert (Nest : glob (snd (load_file meta (load_class k meta) n None u)) m = Some v -> settled (load_class (S k) meta m u)).
  { intros X. apply load_file_globs in X. destruct X as [X|(f & s & _ & _ & _ & X)]; [congruence|].
    assert (Y := IH meta s u m v G X). rewrite (load_class_mono sel is_prim known avoid path k (S k)); [exact Y|lia|exact Y]. }
  cbn [ClsModel.load_class] in H. destruct (glob u n) as [w|] eqn:Gn; [cbn in H; congruence|].
  destruct (load_file meta (load_class k meta) n None u) as [[r|e] u1] eqn:E; cbn [snd] in Nest.
  2: { rewrite (andthen_err _ _ _ _ _ _ _ E) in H. cbn [snd] in H. auto. }
  rewrite (andthen_step _ _ _ _ _ _ _ E) in H.
  assert (Mg := maybe_globs r false u1).
  destruct (maybe_primitives M known r false u1) as [[[]|e] u2] eqn:E2; cbn [snd] in Mg.
  2: { rewrite (andthen_err _ _ _ _ _ _ _ E2) in H. cbn [snd] in H. apply Nest. rewrite <- H.
       unfold ClsModel.glob. now rewrite Mg. }
  rewrite (andthen_step _ _ _ _ _ _ _ E2) in H. unfold andthen in H. cbn [set_glob ret fst snd] in H.
  change (Build_univ (u_cls u2) (tset (u_globs u2) n (option_map GCls r))) with (snd (set_glob M n (option_map GCls r) u2)) in H.
  rewrite glob_set in H. destruct (text_eqb n m) eqn:T.
  - apply text_eqb_eq in T. subst m. unfold settled. cbn [ClsModel.load_class]. rewrite Gn.
    rewrite (andthen_step _ _ _ _ _ _ _ E), (andthen_step _ _ _ _ _ _ _ E2). discriminate.
  - apply Nest. rewrite <- H. unfold ClsModel.glob. now rewrite Mg.
Qed.
Lemma file_settled : forall k meta n u a, glob u n = None -> fst (load_class (S k) meta n u) = Ok a ->
  settled (load_file meta (load_class k meta) n None u).
Proof.
  intros k meta n u a G H. cbn [ClsModel.load_class] in H. rewrite G in H. unfold settled.
  intros X. destruct (load_file meta (load_class k meta) n None u) as [r u1] eqn:E. cbn [fst] in X. subst r.
  rewrite (andthen_err _ _ _ _ _ _ _ E) in H. cbn in H. congruence.
Qed.
Lemma not_twice : forall k meta n u a, glob u n = None -> fst (load_class (S k) meta n u) = Ok a ->
  glob (snd (load_file meta (load_class k meta) n None u)) n = None.
Proof.
  induction k as [|k IH]; intros meta n u a G H.
  - destruct (glob (snd (load_file meta (load_class 0 meta) n None u)) n) as [v|] eqn:E; [|reflexivity].
    apply load_file_globs in E. destruct E as [E|(f & s & _ & _ & _ & E)]; [congruence|]. cbn in E. congruence.
  - destruct (glob (snd (load_file meta (load_class (S k) meta) n None u)) n) as [v|] eqn:E; [|reflexivity].
    exfalso. assert (E0 := E). apply load_file_globs in E0. destruct E0 as [E0|(f & s & _ & _ & _ & E0)]; [congruence|].
    assert (S1 := new_settled (S k) meta s u n v G E0).
    assert (M1 := load_class_mono sel is_prim known avoid path (S k) (S (S k)) meta n u (Nat.le_succ_diag_r _) S1).
    rewrite M1 in H. assert (F := file_settled k meta n u a G H).
    assert (M2 := load_file_mono sel is_prim avoid path (load_class k meta) (load_class (S k) meta) meta None n u
      (fun m w => load_class_mono sel is_prim known avoid path k (S k) meta m w (Nat.le_succ_diag_r _)) F).
    specialize (IH meta n u a G H). rewrite M2 in E. congruence.
Qed.

(** * The superclass *)
Definition sup_ok (u : univ) : Prop := forall n c d,
  glob u n = Some (GCls c) -> find M path n = Some (Good d) -> ~ system_name n ->
  super_name d <> str "nil" /\ exists sc, glob u (super_name d) = Some (GCls sc) /\ super_of u c = Some sc.
Lemma sup_same : forall u u', sup_ok u -> u_globs u' = u_globs u -> ext u u' -> sup_ok u'.
Proof.
  intros u u' H E X n c d Gn F S.
  assert (Gl : forall m, glob u' m = glob u m) by (intros m; unfold ClsModel.glob; now rewrite E).
  rewrite Gl in Gn. destruct (H n c d Gn F S) as (N & sc & A & B). split; [exact N|]. exists sc. rewrite Gl.
  split; [exact A|]. eapply ext_super_some; eauto.
Qed.
Lemma grown_ext : forall u u' : univ, only_grown u u' -> ext u u'.
Proof. intros u u' G i k H. exists k. split; [eapply grown_nth; eauto|apply same_refl]. Qed.
Lemma sup_adds : forall u u', sup_ok u -> adds u u' -> sup_ok u'.
Proof. intros u u' H [A B]. eapply sup_same; eauto. now apply grown_ext. Qed.

(** The superclass of a class just compiled. *)
Lemma compile_sup : forall ld f u i u1,
  (forall n u v, fst (ld n u) = Ok (Some v) -> glob (snd (ld n u)) n = Some v) ->
  compile M sel is_prim 1 ld None f u = (Ok i, u1) ->
  exists d sc, f = Good d /\ super_name d <> str "nil" /\ glob u1 (super_name d) = Some (GCls sc) /\ super_of u1 i = Some sc.
Proof.
  intros ld f u i u1 Hf H. destruct f as [d| |o]; cbn [compile] in H.
  - apply andthen_ok in H. destruct H as (sup & u2 & H1 & H2).
    assert (Gl := assemble_globs sel is_prim 1 sup d u2). rewrite H2 in Gl. cbn [snd] in Gl.
    apply assemble_fresh in H2. destruct H2 as (s & fs & cfs & sk & smc & mk & -> & S1 & S2 & S3 & Ei & Eu).
    exists d, s. split; [reflexivity|].
    unfold superclass in H1. change (match c_super M d with Some n => n | None => t_Object end) with (super_name d) in H1.
    destruct (text_eqb (super_name d) t_nil) eqn:T; [unfold ret in H1; congruence|].
    apply text_eqb_neq in T. split; [exact T|].
    apply andthen_ok in H1. destruct H1 as (v & u3 & L1 & H1).
    assert (L2 := Hf (super_name d) u). rewrite L1 in L2. cbn [fst snd] in L2.
    destruct v as [[j|l j]|]; try (unfold fail in H1; congruence).
    specialize (L2 _ eq_refl).
    apply andthen_ok in H1. destruct H1 as (k & w1 & G1 & H1).
    assert (X := grown_get j u3). rewrite G1 in X. cbn [snd] in X. subst w1.
    apply andthen_ok in H1. destruct H1 as (fs' & w1 & G2 & H1).
    assert (X := grown_the _ (k_fields k) u3). rewrite G2 in X. cbn [snd] in X. subst w1.
    apply andthen_ok in H1. destruct H1 as (mi & w1 & G3 & H1).
    assert (X := grown_the _ (k_class k) u3). rewrite G3 in X. cbn [snd] in X. subst w1.
    apply andthen_ok in H1. destruct H1 as (mk' & w1 & G4 & H1).
    assert (X := grown_get mi u3). rewrite G4 in X. cbn [snd] in X. subst w1.
    apply andthen_ok in H1. destruct H1 as (cfs' & w1 & G5 & H1).
    assert (X := grown_the _ (k_fields mk') u3). rewrite G5 in X. cbn [snd] in X. subst w1.
    unfold ret in H1. assert (j = s /\ u3 = u2) as [-> ->] by (split; congruence).
    split; [unfold ClsModel.glob; rewrite Gl; exact L2|].
    rewrite Eu, Ei. unfold super_of. cbn [u_cls]. rewrite nth_error_app2 by lia.
    replace (S (length (u_cls u2)) - length (u_cls u2)) with 1 by lia. reflexivity.
  - unfold fail in H. congruence.
  - apply andthen_ok in H. destruct H as (? & ? & _ & H). unfold fail in H. congruence.
Qed.

Lemma ext_set_glob : forall n v (u : univ), ext u (snd (set_glob M n v u)).
Proof. intros n v u i k H. exists k. split; [exact H|apply same_refl]. Qed.
Lemma sup_set : forall n v u, sup_ok u ->
  (forall m d, find M path m = Some (Good d) -> super_name d = n -> forall c, glob u m = Some (GCls c) -> m <> n -> ~ system_name m -> False) ->
  (forall c d, v = Some (GCls c) -> find M path n = Some (Good d) -> ~ system_name n ->
     super_name d <> str "nil" /\ super_name d <> n /\ exists sc, glob u (super_name d) = Some (GCls sc) /\ super_of u c = Some sc) ->
  sup_ok (snd (set_glob M n v u)).
Proof.
  intros n v u H Ho Hn m c d Gm F S. rewrite glob_set in Gm. destruct (text_eqb n m) eqn:T.
  - apply text_eqb_eq in T. subst m. destruct (Hn c d Gm F S) as (N & N2 & sc & A & B). split; [exact N|].
    exists sc. rewrite glob_set. replace (text_eqb n (super_name d)) with false by (symmetry; apply text_eqb_neq; congruence).
    now split.
  - apply text_eqb_neq in T. destruct (H m c d Gm F S) as (N & sc & A & B). split; [exact N|]. exists sc.
    rewrite glob_set. destruct (text_eqb n (super_name d)) eqn:T2; [|now split].
    apply text_eqb_eq in T2. exfalso. eapply (Ho m d F); eauto.
Qed.

Lemma found : forall k n u v, fst (load_class k 1 n u) = Ok (Some v) -> glob (snd (load_class k 1 n u)) n = Some v.
Proof.
  intros k n u v H. destruct (load_class k 1 n u) as [r u'] eqn:E. cbn [fst snd] in *. subst r.
  eapply load_class_found; eauto.
Qed.
Lemma sup_load : forall k n u, Inv u -> sup_ok u -> sup_ok (snd (load_class k 1 n u)).
Proof.
  induction k as [|k IH]; intros n u I H; [exact H|].
  assert (NT := not_twice k 1 n u).
  cbn [ClsModel.load_class] in *. destruct (glob u n) as [w|] eqn:Gn; [exact H|].
  assert (Ki := keeps_load_file sel is_prim avoid path (load_class k 1) n None (keeps_load_class sel is_prim known avoid path k) u I Logic.I).
  assert (Hf : sup_ok (snd (load_file 1 (load_class k 1) n None u))).
  { destruct (load_file_after (load_class k 1) 1 n u) as [E|(f & s & w & F & S & A & B)]; [now rewrite E|].
    eapply sup_adds; [|exact B]. destruct A as [[_ ->]|[_ ->]]; [exact H|now apply IH]. }
  destruct (load_file 1 (load_class k 1) n None u) as [[r|e] u1] eqn:E; cbn [fst snd] in *.
  2: { rewrite (andthen_err _ _ _ _ _ _ _ E). exact Hf. }
  rewrite (andthen_step _ _ _ _ _ _ _ E) in *.
  destruct Ki as (I1 & _ & V1).
  assert (Mg := maybe_globs r false u1).
  assert (Km := keeps_maybe (M := M) known r false (fun _ => True) (fun _ _ _ _ => Logic.I) u1 I1 Logic.I).
  destruct Km as (I2 & X2 & _).
  destruct (maybe_primitives M known r false u1) as [[[]|e] u2] eqn:E2; cbn [snd] in *.
  2: { rewrite (andthen_err _ _ _ _ _ _ _ E2). cbn [snd]. eapply sup_same; eauto. }
  rewrite (andthen_step _ _ _ _ _ _ _ E2) in *. unfold andthen in *. cbn [set_glob ret fst snd] in *.
  specialize (NT (option_map GCls r) eq_refl eq_refl).
  change (Build_univ (u_cls u2) (tset (u_globs u2) n (option_map GCls r))) with (snd (set_glob M n (option_map GCls r) u2)).
  assert (H2 : sup_ok u2) by (eapply sup_same; eauto).
  assert (Gl : forall m, glob u2 m = glob u1 m) by (intros m; unfold ClsModel.glob; now rewrite Mg).
  apply sup_set; [exact H2| |].
  - intros m d F Sn c Gm _ S. destruct (H2 m c d Gm F S) as (_ & sc & A & _). rewrite Sn, Gl in A. congruence.
  - intros c d Ev F S. destruct r as [i|]; [|discriminate]. cbn [option_map] in Ev. assert (c = i) by congruence. subst c.
    unfold ClsModel.load_file in E. rewrite F in E. apply andthen_ok in E. destruct E as (j & w & Ec & E).
    destruct (compile_sup (load_class k 1) (Good d) u j w (found k) Ec) as (d' & sc & Ed & N & A & B).
    assert (d' = d) by congruence. subst d'.
    assert (w = u1 /\ j = i) as [-> ->].
    { apply andthen_ok in E. destruct E as (kk & w1 & G1 & E).
      assert (X := grown_get j w). rewrite G1 in X. cbn [snd] in X. subst w1.
      apply andthen_ok in E. destruct E as (nm & w1 & G2 & E).
      assert (X := grown_the _ (k_name kk) w). rewrite G2 in X. cbn [snd] in X. subst w1.
      apply andthen_ok in E. destruct E as ([] & w1 & G3 & E).
      assert (X : w1 = w). { destruct (text_eqb n nm); [unfold ret in G3|unfold exit in G3; destruct avoid; [unfold ret in G3|unfold fail in G3]]; congruence. }
      subst w1. unfold ret in E. split; congruence. }
    split; [exact N|]. split; [intros X; rewrite X in A; congruence|]. exists sc. rewrite Gl. split; [exact A|].
    eapply ext_super_some; eauto.
Qed.

(** * Start-up *)
Variable Hres : forall n d, find M path n = Some (Good d) -> reserved (super_name d) = false.
Definition G0 (u : univ) : Prop := forall n c, In (n, c) sysids -> glob u n = Some (GCls c).
Definition E (u : univ) : Prop := Inv u /\ sup_ok u /\ G0 u /\ ext (@base M) u.

Lemma E_load : forall fuel n u r u', E u -> load_class fuel 1 n u = (r, u') -> E u'.
Proof.
  intros fuel n u r u' (I & S & G & X) H.
  destruct (keeps_load_class sel is_prim known avoid path fuel n u I Logic.I) as (I1 & X1 & _).
  assert (S1 := sup_load fuel n u I S). assert (W := grown_load_class sel is_prim known avoid path fuel 1 n u).
  rewrite H in *. cbn [snd] in *. split; [exact I1|]. split; [exact S1|]. split.
  - intros m c K. apply W. now apply G.
  - eapply ext_trans; eauto.
Qed.
Lemma E_need : forall fuel n u i u', E u -> need_class M sel is_prim known avoid path fuel 1 n u = (Ok i, u') ->
  E u' /\ glob u' n = Some (GCls i).
Proof.
  intros fuel n u i u' Hu H. unfold need_class in H. apply andthen_ok in H. destruct H as (v & u1 & H1 & H).
  assert (E1 := E_load _ _ _ _ _ Hu H1).
  destruct v as [[j|l j]|]; unfold ret, fail in H; try congruence.
  assert (j = i /\ u1 = u') as [-> ->] by (split; congruence). split; [exact E1|]. eapply load_class_found; eauto.
Qed.
Lemma E_prims : forall c u u', E u -> valid c u -> load_primitives M known c u = (Ok tt, u') -> E u' /\ u_globs u' = u_globs u.
Proof.
  intros c u u' (I & S & G & X) V H.
  assert (K := keeps_load_primitives (M := M) known c (fun _ => True) (fun _ _ _ _ => Logic.I) u I Logic.I).
  destruct K as (I1 & X1 & _). 
  assert (Gl : u_globs u' = u_globs u).
  { assert (Y : u' = snd (load_primitives M known c u)) by now rewrite H. rewrite Y. clear.
    unfold load_primitives, andthen.
    assert (G := grown_get c u). destruct (get M c u) as [[k'|e] u2]; cbn [fst snd] in *; subst u2; [|reflexivity].
    unfold the. destruct (k_name k') as [n|]; [|reflexivity]. cbn [ret fst snd].
    destruct (known n) as [l|]; [|reflexivity]. destruct (k_class k') as [mi'|]; [|reflexivity]. cbn [ret fst snd].
    generalize u. induction l as [|[b s] r IH]; intros w; cbn [install]; [reflexivity|]. unfold andthen at 1.
    cbn [add_primitive edit fst snd]. now rewrite IH. }
  rewrite H in *. cbn [snd] in *. split; [|exact Gl]. split; [exact I1|]. split; [eapply sup_same; eauto|]. split.
  - intros m d K. unfold ClsModel.glob. rewrite Gl. now apply G.
  - eapply ext_trans; eauto.
Qed.
(** Names that no system class has. *)
Definition free (n : text) : bool := negb (mem n (map fst sysids)).
Lemma free_sys : forall n c, free n = true -> In (n, c) sysids -> False.
Proof.
  intros n c H I. unfold free in H. apply negb_true_iff, mem_not in H. apply H. apply in_map_iff. now exists (n, c).
Qed.
Lemma E_set : forall n v u u', E u -> free n = true -> n = str "nil" \/ reserved n = true ->
  gvalid v u ->
  (forall c, v = Some (GCls c) -> exists d sc, find M path n = Some (Good d) /\ super_name d <> str "nil" /\
     glob u (super_name d) = Some (GCls sc) /\ super_of u c = Some sc) ->
  set_glob M n v u = (Ok tt, u') -> E u'.
Proof.
  intros n v u u' (I & S & G & X) Fr R V Hv H.
  assert (Y : u' = snd (set_glob M n v u)) by now rewrite H.
  assert (I1 : Inv u').
  { assert (K := keeps_set_glob (M := M) n v (gvalid v) (stable_gvalid v) (fun u p => p) u I V). rewrite Y. apply K. }
  assert (Notn : forall m d, find M path m = Some (Good d) -> super_name d <> str "nil" -> super_name d <> n).
  { intros m d F N Eq. destruct R as [R|R]; [congruence|]. rewrite <- Eq, (Hres m d F) in R. discriminate. }
  split; [exact I1|]. split; [|split].
  - rewrite Y. apply sup_set; [exact S| |].
    + intros m d F Sn c Gm _ Sy. destruct (S m c d Gm F Sy) as (N & _). now apply (Notn m d F).
    + intros c d Ev F Sy. destruct (Hv c Ev) as (d' & sc & F' & N & A & B).
      assert (d' = d) by congruence. subst d'. split; [exact N|]. split; [now apply (Notn n d F)|]. now exists sc.
  - intros m c K. rewrite Y, glob_set. destruct (text_eqb n m) eqn:T; [|now apply G].
    apply text_eqb_eq in T. subst m. exfalso. eapply free_sys; eauto.
  - eapply ext_trans; [exact X|]. rewrite Y. apply ext_set_glob.
Qed.
Lemma E_obj : forall n l c u u', E u -> free n = true -> n = str "nil" \/ reserved n = true ->
  set_glob M n (Some (GObj l c)) u = (Ok tt, u') -> E u'.
Proof. intros n l c u u' Hu Fr R H. eapply E_set; eauto; [exact Logic.I|]. intros d Ed. discriminate. Qed.
Lemma E_block : forall fuel n k u i u', E u -> free n = true -> reserved n = true ->
  make_block_class M sel is_prim known avoid path fuel 1 n k u = (Ok i, u') -> E u'.
Proof.
  intros fuel n k u i u' (I & S & G & X) Fr R H. unfold make_block_class in H.
  apply andthen_ok in H. destruct H as (r & u1 & H1 & H).
  assert (Ki := keeps_load_file sel is_prim avoid path (load_class fuel 1) n None (keeps_load_class sel is_prim known avoid path fuel) u I Logic.I).
  assert (Hf : sup_ok (snd (load_file 1 (load_class fuel 1) n None u))).
  { destruct (load_file_after (load_class fuel 1) 1 n u) as [E0|(f & s & w & F & S0 & A & B)]; [now rewrite E0|].
    eapply sup_adds; [|exact B]. destruct A as [[_ ->]|[_ ->]]; [exact S|now apply sup_load]. }
  assert (W := grown_load_file sel is_prim avoid path 1 (load_class fuel 1) n u (fun m w => grown_load_class sel is_prim known avoid path fuel 1 m w)).
  destruct Ki as (I1 & X1 & V1). rewrite H1 in I1, X1, V1, Hf, W. cbn [fst snd] in I1, X1, V1, Hf, W.
  apply andthen_ok in H. destruct H as (j & u2 & H2 & H). destruct r as [j'|]; [|discriminate].
  cbn [the] in H2. unfold ret in H2. assert (j' = j /\ u2 = u1) as [-> ->] by (split; congruence).
  specialize (V1 _ eq_refl). cbn in V1.
  assert (E1 : E u1).
  { split; [exact I1|]. split; [exact Hf|]. split; [|eapply ext_trans; eauto]. intros m c K. apply W. now apply G. }
  apply andthen_ok in H. destruct H as ([] & u3 & H3 & H).
  assert (Ka := keeps_add_primitive (M := M) j (value_selector k) (BlockValue k) (valid j) (stable_valid j) u1 I1 V1).
  destruct Ka as (I3 & X3 & V3). rewrite H3 in I3, X3, V3. cbn [fst snd] in I3, X3, V3. specialize (V3 _ eq_refl).
  assert (Gl : u_globs u3 = u_globs u1).
  { assert (Y : u3 = snd (add_primitive M j (value_selector k) (BlockValue k) u1)) by now rewrite H3. now rewrite Y. }
  assert (E3 : E u3).
  { destruct E1 as (A1 & A2 & A3 & A4). split; [exact I3|]. split; [eapply sup_same; eauto|]. split; [|eapply ext_trans; eauto].
    intros m c K. unfold ClsModel.glob. rewrite Gl. now apply A3. }
  apply andthen_ok in H. destruct H as ([] & u4 & H4 & H). unfold ret in H.
  assert (u4 = u') by congruence. subst u4.
  apply (E_set n (Some (GCls j)) u3 u' E3 Fr (or_intror R) V3); [|exact H4].
  intros c Ec. assert (c = j) by congruence. subst c.
  unfold ClsModel.load_file in H1. destruct (find M path n) as [f|] eqn:Fn; [|unfold ret in H1; congruence].
  apply andthen_ok in H1. destruct H1 as (j0 & w & Ecmp & H1).
  destruct (compile_sup (load_class fuel 1) f u j0 w (found fuel) Ecmp) as (d & sc & -> & N & A & B).
  assert (w = u1 /\ j0 = j) as [-> ->].
  { apply andthen_ok in H1. destruct H1 as (kk & w1 & G1 & H1).
    assert (Z := grown_get j0 w). rewrite G1 in Z. cbn [snd] in Z. subst w1.
    apply andthen_ok in H1. destruct H1 as (nm & w1 & G2 & H1).
    assert (Z := grown_the _ (k_name kk) w). rewrite G2 in Z. cbn [snd] in Z. subst w1.
    apply andthen_ok in H1. destruct H1 as ([] & w1 & G3 & H1).
    assert (Z : w1 = w). { destruct (text_eqb n nm); [unfold ret in G3|unfold exit in G3; destruct avoid; [unfold ret in G3|unfold fail in G3]]; congruence. }
    subst w1. unfold ret in H1. split; congruence. }
  exists d, sc. split; [reflexivity|]. split; [exact N|]. unfold ClsModel.glob at 1. rewrite Gl. split; [exact A|].
  eapply ext_super_some; eauto.
Qed.

Lemma E_again : forall n v u u', E u -> glob u n = Some v -> set_glob M n (Some v) u = (Ok tt, u') -> u' = u.
Proof. intros n v u u' _ G H. rewrite (set_again n v u G) in H. congruence. Qed.

Lemma specials_E : forall fuel u u', E u -> specials M sel is_prim known avoid path fuel sys0 u = (Ok tt, u') -> E u'.
Proof.
  intros fuel u u' Hu H. unfold specials in H. cbn [sys0 s_meta s_nil] in H.
  apply andthen_ok in H. destruct H as (b & u1 & H1 & H).
  assert (E1 := E_load _ _ _ _ _ Hu H1).
  assert (W1 := grown_load_class sel is_prim known avoid path fuel 1 (str "Block") u). rewrite H1 in W1. cbn [snd] in W1.
  apply andthen_ok in H. destruct H as (t & u2 & H2 & H).
  destruct (E_need _ _ _ _ _ E1 H2) as (E2 & G2).
  assert (Wn : forall n u i u', need_class M sel is_prim known avoid path fuel 1 n u = (Ok i, u') -> only_grown u u').
  { clear. intros n u i u' H. unfold need_class in H. apply andthen_ok in H. destruct H as (v & w & H1 & H).
    assert (W := grown_load_class sel is_prim known avoid path fuel 1 n u). rewrite H1 in W. cbn [snd] in W.
    destruct v as [[j|l j]|]; unfold ret, fail in H; congruence. }
  assert (W2 := Wn _ _ _ _ H2).
  apply andthen_ok in H. destruct H as ([] & u3 & H3 & H).
  destruct (E_prims _ _ _ E2 (i_glob u2 (proj1 E2) _ _ G2) H3) as (E3 & Q3).
  apply andthen_ok in H. destruct H as (f & u4 & H4 & H).
  destruct (E_need _ _ _ _ _ E3 H4) as (E4 & G4). assert (W4 := Wn _ _ _ _ H4).
  apply andthen_ok in H. destruct H as ([] & u5 & H5 & H).
  destruct (E_prims _ _ _ E4 (i_glob u4 (proj1 E4) _ _ G4) H5) as (E5 & Q5).
  apply andthen_ok in H. destruct H as (y & u6 & H6 & H).
  destruct (E_need _ _ _ _ _ E5 H6) as (E6 & G6). assert (W6 := Wn _ _ _ _ H6).
  assert (Up : forall n v, glob u2 n = Some v -> glob u6 n = Some v).
  { intros n v X. apply W6. unfold ClsModel.glob. rewrite Q5. fold (glob u4 n). apply W4.
    unfold ClsModel.glob. rewrite Q3. exact X. }
  assert (Gt := Up _ _ G2).
  assert (Gf : glob u6 (str "False") = Some (GCls f)).
  { apply W6. unfold ClsModel.glob. rewrite Q5. exact G4. }
  assert (Gb : forall v, b = Some v -> glob u6 (str "Block") = Some v).
  { intros v ->. apply Up, W2. eapply load_class_found; eauto. }
  apply andthen_ok in H. destruct H as ([] & u7 & H7 & H).
  assert (E7 := E_obj (str "nil") _ _ _ _ E6 eq_refl (or_introl eq_refl) H7).
  apply andthen_ok in H. destruct H as ([] & u8 & H8 & H).
  assert (E8 := E_obj (str "true") _ _ _ _ E7 eq_refl (or_intror eq_refl) H8).
  apply andthen_ok in H. destruct H as ([] & u9 & H9 & H).
  assert (E9 := E_obj (str "false") _ _ _ _ E8 eq_refl (or_intror eq_refl) H9).
  apply andthen_ok in H. destruct H as ([] & v0 & K0 & H).
  assert (E10 := E_obj (str "system") _ _ _ _ E9 eq_refl (or_intror eq_refl) K0).
  assert (Same : forall n, mem n [str "nil"; str "true"; str "false"; str "system"] = false -> glob v0 n = glob u6 n).
  { intros n X. apply mem_not in X. cbn [In] in X.
    assert (O : forall m l c w w', set_glob M m (Some (GObj l c)) w = (Ok tt, w') -> n <> m -> glob w' n = glob w n).
    { intros m l c w w' Y N. assert (Z : w' = snd (set_glob M m (Some (GObj l c)) w)) by now rewrite Y.
      rewrite Z, glob_set. replace (text_eqb m n) with false; [reflexivity|]. symmetry. apply text_eqb_neq. congruence. }
    rewrite (O _ _ _ _ _ K0), (O _ _ _ _ _ H9), (O _ _ _ _ _ H8), (O _ _ _ _ _ H7); [reflexivity|..]; intros ->; apply X; tauto. }
  apply andthen_ok in H. destruct H as ([] & v1 & K1 & H).
  rewrite set_again in K1 by (rewrite Same by reflexivity; exact G6). assert (v1 = v0) by congruence. subst v1.
  apply andthen_ok in H. destruct H as ([] & v1 & K2 & H).
  destruct b as [[bi|bl bi]|].
  2,3: exfalso; clear - H;
    apply andthen_ok in H; destruct H as (? & ? & _ & H); apply andthen_ok in H; destruct H as (? & ? & _ & H);
    apply andthen_ok in H; destruct H as (? & ? & _ & H); apply andthen_ok in H; destruct H as (? & ? & _ & H);
    apply andthen_ok in H; destruct H as (? & ? & _ & H); apply andthen_ok in H; destruct H as (? & ? & _ & H);
    unfold fail in H; congruence.
  rewrite set_again in K2 by (rewrite Same by reflexivity; apply Gb; reflexivity). assert (v1 = v0) by congruence. subst v1.
  apply andthen_ok in H. destruct H as ([] & v1 & K3 & H).
  rewrite set_again in K3 by (apply (proj1 (proj2 (proj2 E10))); apply mem2_In; vm_compute; reflexivity).
  assert (v1 = v0) by congruence. subst v1.
  apply andthen_ok in H. destruct H as ([] & v1 & K4 & H).
  rewrite set_again in K4 by (rewrite Same by reflexivity; exact Gt). assert (v1 = v0) by congruence. subst v1.
  apply andthen_ok in H. destruct H as ([] & v1 & K5 & H).
  rewrite set_again in K5 by (rewrite Same by reflexivity; exact Gf). assert (v1 = v0) by congruence. subst v1.
  apply andthen_ok in H. destruct H as (b1 & w1 & B1 & H).
  apply andthen_ok in H. destruct H as (b2 & w2 & B2 & H).
  apply andthen_ok in H. destruct H as (b3 & w3 & B3 & H).
  unfold ret in H. assert (w3 = u') by congruence. subst w3.
  assert (F1 := E_block _ (str "Block1") _ _ _ _ E10 eq_refl eq_refl B1).
  assert (F2 := E_block _ (str "Block2") _ _ _ _ F1 eq_refl eq_refl B2).
  exact (E_block _ (str "Block3") _ _ _ _ F2 eq_refl eq_refl B3).
Qed.

Variable Hconf : conforming path.
Lemma start_E : forall fuel s u, start M sel is_prim known avoid path fuel empty = (Ok s, u) -> E u.
Proof.
  intros fuel s u H. rewrite start_eq in H. unfold after_base in H.
  apply andthen_ok in H. destruct H as ([] & u1 & H1 & H).
  apply andthen_ok in H. destruct H as ([] & u2 & H2 & H). unfold ret in H.
  assert (u2 = u) by congruence. subst u2.
  destruct (load_all_ok sel is_prim known avoid path Hconf fuel u1 H1) as [SG SI SD ST].
  assert (Gb : forall n v, glob u1 n = Some v <-> glob (@base M) n = Some v).
  { intros n v. unfold ClsModel.glob. now rewrite SG. }
  apply (specials_E fuel u1 u); [|exact H2]. split; [exact SI|]. split; [|split].
  - intros n c d Gn F S. exfalso. apply S. apply Gb, glob_base_in in Gn. destruct Gn as (c' & _ & K).
    now apply (sys_always n c').
  - intros n c K. apply Gb. now apply in_glob_base.
  - assert (V : forall i, i < 11 -> valid (S (2 * i)) (@base M)).
    { intros i L. split; [now exists i|]. change (length (u_cls base)) with 22. lia. }
    destruct (keeps_load_all sel is_prim known avoid path fuel (load_order sys0) base base_inv) as (_ & X & _).
    + unfold load_order, sys0. cbn [s_meta s_object s_nil s_class s_array s_symbol s_method s_integer s_primitive s_string s_double].
      repeat (apply Forall_cons; [match goal with |- valid ?k _ => exact (V (Nat.div2 k) ltac:(cbn; lia)) end|]). apply Forall_nil.
    + now rewrite H1 in X.
Qed.
Lemma run_E : forall qs fuel u, E u -> E (snd (run M sel is_prim known avoid path fuel 1 qs u)).
Proof.
  induction qs as [|q r IH]; intros fuel u Hu; cbn [run snd]; [exact Hu|]. apply IH.
  destruct q as [n|f]; cbn [serve].
  - destruct (load_class fuel 1 n u) as [a u'] eqn:K. cbn [snd]. eapply E_load; eauto.
  - destruct Hu as (I & S & G & X).
    assert (Kc := keeps_compile sel is_prim (load_class fuel 1) None f (keeps_load_class sel is_prim known avoid path fuel) u I Logic.I).
    destruct Kc as (I1 & X1 & _).
    assert (W := grown_compile sel is_prim 1 (load_class fuel 1) f u (fun m w => grown_load_class sel is_prim known avoid path fuel 1 m w)).
    assert (S1 : sup_ok (snd (compile M sel is_prim 1 (load_class fuel 1) None f u))).
    { destruct (compile_after (load_class fuel 1) 1 f u) as [[_ C]|(s & w & _ & A & B)]; [now rewrite C|].
      eapply sup_adds; [|exact B]. destruct A as [[_ ->]|[_ ->]]; [exact S|now apply sup_load]. }
    unfold load_shell. destruct (compile M sel is_prim 1 (load_class fuel 1) None f u) as [[i|e] u'] eqn:K; cbn [snd] in *.
    + erewrite andthen_step by exact K. cbn [ret snd]. split; [exact I1|]. split; [exact S1|].
      split; [intros m c Y; apply W; now apply G|eapply ext_trans; eauto].
    + erewrite andthen_err by exact K. cbn [snd]. split; [exact I1|]. split; [exact S1|].
      split; [intros m c Y; apply W; now apply G|eapply ext_trans; eauto].
Qed.

(** What it says of a named class. *)
Lemma sys_supers : forall n c s, In (n, c) sysids -> In (n, s) system_supers ->
  s = str "nil" /\ super_of (@base M) c = None \/
  s <> str "nil" /\ exists sc, In (s, sc) sysids /\ super_of (@base M) c = Some sc.
Proof.
  assert (F : forallb (fun p => forallb (fun q => negb (text_eqb (fst p) (fst q)) ||
     match super_of (@base M) (snd p) with
     | None => text_eqb (snd q) (str "nil")
     | Some sc => negb (text_eqb (snd q) (str "nil")) && mem2 (snd q, sc) sysids end) system_supers) sysids = true)
     by (vm_compute; reflexivity).
  intros n c s H1 H2. rewrite forallb_forall in F. specialize (F _ H1). rewrite forallb_forall in F. specialize (F _ H2).
  cbn [fst snd] in F. rewrite text_eqb_refl in F. cbn [negb orb] in F.
  destruct (super_of base c) as [sc|].
  - right. apply andb_true_iff in F. destruct F as [A B]. apply negb_true_iff, text_eqb_neq in A. split; [exact A|].
    exists sc. split; [now apply mem2_In|reflexivity].
  - left. apply text_eqb_eq in F. now split.
Qed.
Lemma E_super : forall u n c d, E u -> glob u n = Some (GCls c) -> find M path n = Some (Good d) ->
  super_name d = str "nil" /\ super_of u c = None \/
  super_name d <> str "nil" /\ exists sc, glob u (super_name d) = Some (GCls sc) /\ super_of u c = Some sc.
Proof.
  intros u n c d (I & S & G & X) Gn F.
  destruct (mem n (map fst system_supers)) eqn:Sy.
  - apply mem_In in Sy. destruct (system_in n Sy) as (c' & K).
    assert (c' = c) by (assert (Y := G n c' K); congruence). subst c'.
    apply in_map_iff in Sy. destruct Sy as ([m s] & Em & Sy). cbn [fst] in Em. subst m.
    destruct (Hconf n s Sy) as (d' & F' & Sn). assert (d' = d) by congruence. subst d'. rewrite Sn.
    assert (L : c < length (u_cls (@base M))).
    { destruct (base_at (M := M) n c K) as (k & _ & _ & Bk & _). apply nth_error_Some. congruence. }
    rewrite (ext_super _ _ c X L).
    destruct (sys_supers n c s K Sy) as [[A B]|(A & sc & B & C)]; [now left|right]. split; [exact A|].
    exists sc. split; [now apply G|exact C].
  - right. apply (S n c d Gn F). intros Y. apply mem_In in Y. congruence.
Qed.
End Super.
