(** Fields and methods of a class are what its file declares. *)
From Coq Require Import Bool String List Ascii Arith Lia.
From Verif Require Import Base LexModel ParseModel ClsModel ClsSpec ClsGrow ClsHier.
Import ListNotations.

Section Decl.
Context {M : Type}.
Variable sel : M -> text.
Variable is_prim : M -> bool.
Variable known : text -> option (list (bool * text)).
Variable avoid : bool.
Variable path : list (text -> option (file M)).

Notation comp := (comp M).
Notation univ := (univ M).
Notation load_class := (load_class M sel is_prim known avoid path).
Notation load_file := (load_file M sel is_prim avoid path).
Notation glob := (glob M).
Notation has_builtin := (has_builtin known).
Notation wants_primitives := (wants_primitives is_prim).
Notation expected := (expected sel is_prim known).

(** * Tables *)
Definition tab (k : kls M) (s : text) : option (entry M) :=
  match k_table k with Some t => tget t s | None => None end.
Definition entry_at (c : nat) (o : option (code M)) : option (entry M) :=
  option_map (fun k => {| e_code := k; e_holder := c |}) o.
Lemma methods_table_get : forall h ms s,
  tget (methods_table M sel h ms) s = entry_at h (option_map Written (written sel ms s)).
Proof.
  intros h ms s. unfold methods_table, written, entry_at.
  rewrite <- (rev_involutive ms) at 1. rewrite <- fold_left_rev_right. rewrite rev_involutive.
  induction (rev ms) as [|m r IH]; cbn [fold_right List.find option_map tget]; [reflexivity|].
  rewrite tget_tset. destruct (text_eqb (sel m) s); [reflexivity|exact IH].
Qed.
Lemma some_table_get : forall (t : list (text * entry M)) s,
  match some_table M t with Some t => tget t s | None => None end = tget t s.
Proof. intros [|e t] s; reflexivity. Qed.

(** Installing the primitives of the VM. *)
Definition hits (l : list (bool * text)) (cside : bool) (s : text) : bool :=
  existsb (fun p => Bool.eqb (fst p) cside && text_eqb (snd p) s) l.
Definition but_table (k k' : kls M) : Prop :=
  k_name k' = k_name k /\ k_super k' = k_super k /\ k_class k' = k_class k /\ k_slots k' = k_slots k /\
  k_fields k' = k_fields k /\ k_inst k' = k_inst k /\ k_prims k' = k_prims k.
Lemma but_table_trans : forall a b c, but_table a b -> but_table b c -> but_table a c.
Proof. intros a b c (A1&A2&A3&A4&A5&A6&A7) (B1&B2&B3&B4&B5&B6&B7). repeat split; congruence. Qed.
Lemma but_table_refl : forall a, but_table a a.
Proof. intros a. repeat split. Qed.
Lemma add_primitive_spec : forall i n c u k, nth_error (u_cls u) i = Some k ->
  exists u' k', add_primitive M i n c u = (Ok tt, u') /\ u_globs u' = u_globs u /\
    length (u_cls u') = length (u_cls u) /\
    (forall j, j <> i -> nth_error (u_cls u') j = nth_error (u_cls u) j) /\
    nth_error (u_cls u') i = Some k' /\ but_table k k' /\
    forall s, tab k' s = if text_eqb n s then Some {| e_code := c; e_holder := i |} else tab k s.
Proof.
  intros i n c u k H. unfold add_primitive, edit. eexists. eexists. split; [reflexivity|].
  cbn [u_globs u_cls]. split; [reflexivity|]. split; [apply upd_length|].
  split.
  { intros j D. rewrite nth_upd. replace (Nat.eqb i j) with false; [reflexivity|].
    symmetry. apply Nat.eqb_neq. congruence. }
  rewrite nth_upd, Nat.eqb_refl, H. cbn [option_map]. split; [reflexivity|]. split; [now repeat split|].
  intros s. unfold tab. cbn [k_table]. rewrite tget_tset. destruct (text_eqb n s); [reflexivity|].
  now destruct (k_table k).
Qed.
Lemma install_spec : forall l i mi n u k mk, i <> mi ->
  nth_error (u_cls u) i = Some k -> nth_error (u_cls u) mi = Some mk ->
  exists u' k' mk', install M i mi n l u = (Ok tt, u') /\ u_globs u' = u_globs u /\
    length (u_cls u') = length (u_cls u) /\
    (forall j, j <> i -> j <> mi -> nth_error (u_cls u') j = nth_error (u_cls u) j) /\
    nth_error (u_cls u') i = Some k' /\ but_table k k' /\
    nth_error (u_cls u') mi = Some mk' /\ but_table mk mk' /\
    (forall s, tab k' s = if hits l false s then Some {| e_code := Builtin n s; e_holder := i |} else tab k s) /\
    (forall s, tab mk' s = if hits l true s then Some {| e_code := Builtin n s; e_holder := mi |} else tab mk s).
Proof.
  induction l as [|[b x] r IH]; intros i mi n u k mk D Hk Hm; cbn [install].
  - exists u, k, mk. repeat (split; [first [reflexivity | assumption | apply but_table_refl | intros; reflexivity]|]).
    intros; reflexivity.
  - destruct b.
    + destruct (add_primitive_spec mi x (Builtin n x) u mk Hm) as (u1 & m1 & E & G & L & O & N & B & T).
      destruct (IH i mi n u1 k m1 D) as (u2 & k2 & m2 & E2 & G2 & L2 & O2 & Nk & Bk & Nm & Bm & Tk & Tm).
      { rewrite O by exact D. exact Hk. }
      { exact N. }
      exists u2, k2, m2. split; [erewrite andthen_step by exact E; exact E2|].
      split; [congruence|]. split; [congruence|].
      split; [intros j J1 J2; rewrite O2, O by assumption; reflexivity|].
      split; [exact Nk|]. split; [exact Bk|]. split; [exact Nm|]. split; [eapply but_table_trans; eauto|].
      split; intros s.
      * rewrite Tk. unfold hits. cbn [existsb fst snd Bool.eqb andb orb]. reflexivity.
      * rewrite Tm, T. unfold hits. cbn [existsb fst snd Bool.eqb andb orb].
        destruct (text_eqb x s) eqn:X; cbn [orb].
        -- apply text_eqb_eq in X. subst x. now destruct (existsb _ r).
        -- reflexivity.
    + destruct (add_primitive_spec i x (Builtin n x) u k Hk) as (u1 & k1 & E & G & L & O & N & B & T).
      destruct (IH i mi n u1 k1 mk D) as (u2 & k2 & m2 & E2 & G2 & L2 & O2 & Nk & Bk & Nm & Bm & Tk & Tm).
      { exact N. }
      { rewrite O by congruence. exact Hm. }
      exists u2, k2, m2. split; [erewrite andthen_step by exact E; exact E2|].
      split; [congruence|]. split; [congruence|].
      split; [intros j J1 J2; rewrite O2, O by assumption; reflexivity|].
      split; [exact Nk|]. split; [eapply but_table_trans; eauto|]. split; [exact Nm|]. split; [exact Bm|].
      split; intros s.
      * rewrite Tk, T. unfold hits. cbn [existsb fst snd Bool.eqb andb orb].
        destruct (text_eqb x s) eqn:X; cbn [orb].
        -- apply text_eqb_eq in X. subst x. now destruct (existsb _ r).
        -- reflexivity.
      * rewrite Tm. unfold hits. cbn [existsb fst snd Bool.eqb andb orb]. reflexivity.
Qed.

(** * A class made from a definition *)
(** [t] gives the methods of its two sides. *)
Record desc (u : univ) (n : text) (c : nat) (d : classdef M)
  (t : bool -> text -> option (code M)) (fi fc : list text) (k mk : kls M) : Prop := {
  d_odd : oddc c;
  d_dec : declares path d fi fc;
  d_k : nth_error (u_cls u) c = Some k;
  d_mk : nth_error (u_cls u) (pred c) = Some mk;
  d_class : k_class k = Some (pred c);
  d_name : k_name k = Some n;
  d_fi : k_fields k = Some fi; d_fc : k_fields mk = Some fc;
  d_ni : k_inst k = length fi; d_nc : k_inst mk = length fc;
  d_slots : ~ system_name n -> k_slots k = length fc;
  d_p : k_prims k = existsb is_prim (c_methods M d);
  d_pc : k_prims mk = existsb is_prim (c_class_methods M d);
  d_t : forall s, tab k s = entry_at c (t false s);
  d_tc : forall s, tab mk s = entry_at (pred c) (t true s) }.
Definition described (u : univ) (n : text) (c : nat) (d : classdef M) (t : bool -> text -> option (code M)) : Prop :=
  exists fi fc k mk, desc u n c d t fi fc k mk.

Lemma described_same : forall u u' n c d t, described u n c d t ->
  nth_error (u_cls u') c = nth_error (u_cls u) c ->
  nth_error (u_cls u') (pred c) = nth_error (u_cls u) (pred c) -> described u' n c d t.
Proof.
  intros u u' n c d t (fi & fc & k & mk & [A1 A2 A3 A4 A5 A6 A7 A8 A9 A10 A11 A12 A13 A14 A15]) E1 E2.
  exists fi, fc, k, mk. split; auto; congruence.
Qed.
Lemma described_ext : forall u n c d t t', (forall b s, t b s = t' b s) -> described u n c d t -> described u n c d t'.
Proof.
  intros u n c d t t' H (fi & fc & k & mk & [A1 A2 A3 A4 A5 A6 A7 A8 A9 A10 A11 A12 A13 A14 A15]).
  exists fi, fc, k, mk. split; auto; intros s; rewrite <- H; auto.
Qed.
Lemma described_grown : forall u u' n c d t, only_grown u u' -> described u n c d t -> described u' n c d t.
Proof.
  intros u u' n c d t G H. assert (H' := H). destruct H' as (fi & fc & k & mk & D).
  eapply described_same; [exact H| |].
  - rewrite (d_k _ _ _ _ _ _ _ _ _ D). eapply grown_nth; [exact G|]. apply (d_k _ _ _ _ _ _ _ _ _ D).
  - rewrite (d_mk _ _ _ _ _ _ _ _ _ D). eapply grown_nth; [exact G|]. apply (d_mk _ _ _ _ _ _ _ _ _ D).
Qed.

Definition built (n : text) (t : bool -> text -> option (code M)) (b : bool) (s : text) : option (code M) :=
  if has_builtin n b s then Some (Builtin n s) else t b s.
Lemma entry_built : forall n t b s c, 
  entry_at c (built n t b s) = if has_builtin n b s then Some {| e_code := Builtin n s; e_holder := c |} else entry_at c (t b s).
Proof. intros. unfold built. now destruct (has_builtin n b s). Qed.
Lemma odd_pred : forall c, oddc c -> pred c <> c.
Proof. intros c (i & ->). cbn. lia. Qed.
Lemma load_primitives_spec : forall u n c d t, described u n c d t ->
  exists u', load_primitives M known c u = (Ok tt, u') /\ u_globs u' = u_globs u /\
    length (u_cls u') = length (u_cls u) /\
    (forall j, j <> c -> j <> pred c -> nth_error (u_cls u') j = nth_error (u_cls u) j) /\
    described u' n c d (built n t).
Proof.
  intros u n c d t (fi & fc & k & mk & [A1 A2 A3 A4 A5 A6 A7 A8 A9 A10 A11 A12 A13 A14 A15]).
  unfold load_primitives. erewrite andthen_step by (apply get_some; exact A3).
  rewrite A6. erewrite andthen_step by reflexivity.
  unfold built. destruct (known n) as [l|] eqn:K.
  - rewrite A5. erewrite andthen_step by reflexivity.
    destruct (install_spec l c (pred c) n u k mk) as (u2 & k2 & m2 & E2 & G2 & L2 & O2 & Nk & Bk & Nm & Bm & Tk & Tm);
      [apply not_eq_sym, odd_pred; exact A1|exact A3|exact A4|].
    destruct Bk as (B1&B2&B3&B4&B5&B6&B7). destruct Bm as (C1&C2&C3&C4&C5&C6&C7).
    exists u2. split; [exact E2|]. split; [exact G2|]. split; [exact L2|]. split; [exact O2|].
    exists fi, fc, k2, m2. split; try assumption; try congruence.
    + intros X. rewrite B4. now apply A11.
    + intros s. fold (built n t false s). rewrite entry_built, Tk, A14. unfold ClsSpec.has_builtin. now rewrite K.
    + intros s. fold (built n t true s). rewrite entry_built, Tm, A15. unfold ClsSpec.has_builtin. now rewrite K.
  - exists u. split; [reflexivity|]. split; [reflexivity|]. split; [reflexivity|]. split; [reflexivity|].
    exists fi, fc, k, mk. split; auto; intros s; unfold ClsSpec.has_builtin; rewrite K; auto.
Qed.

Definition plain (n : text) (d : classdef M) (force : bool) (t : bool -> text -> option (code M))
  (b : bool) (s : text) : option (code M) :=
  if (force || wants_primitives d) && has_builtin n b s then Some (Builtin n s) else t b s.
Lemma maybe_spec : forall u n c d t force, described u n c d t ->
  exists u', maybe_primitives M known (Some c) force u = (Ok tt, u') /\ u_globs u' = u_globs u /\
    length (u_cls u') = length (u_cls u) /\
    (forall j, j <> c -> j <> pred c -> nth_error (u_cls u') j = nth_error (u_cls u) j) /\
    described u' n c d (plain n d force t).
Proof.
  intros u n c d t force H. assert (H' := H).
  destruct H' as (fi & fc & k & mk & [A1 A2 A3 A4 A5 A6 A7 A8 A9 A10 A11 A12 A13 A14 A15]).
  unfold maybe_primitives. erewrite andthen_step by (apply get_some; exact A3).
  rewrite A5. erewrite andthen_step by reflexivity.
  erewrite andthen_step by (apply get_some; exact A4). rewrite A12, A13.
  unfold plain. fold (wants_primitives d). rewrite (orb_comm force).
  destruct (wants_primitives d || force).
  - destruct (load_primitives_spec u n c d t H) as (u' & E & G & L & O & D).
    exists u'. repeat (split; [assumption|]). eapply described_ext; [|exact D]. intros b s. reflexivity.
  - exists u. repeat (split; [reflexivity|]). eapply described_ext; [|exact H]. intros b s. reflexivity.
Qed.
Definition bare (d : classdef M) (b : bool) (s : text) : option (code M) :=
  option_map Written (written sel (if b then c_class_methods M d else c_methods M d) s).

(** * The globals are the classes of their files *)
Variable Hname : avoid = false \/ files_named path.

Definition special (n : text) : bool := always n || is_block n.
(** [L]: the names of the special classes that are complete. *)
Definition final (L : text -> bool) (n : text) (d : classdef M) : bool -> text -> option (code M) :=
  if L n then expected n d else plain n d false (bare d).
Lemma expected_plain : forall n d b s, special n = false -> expected n d b s = plain n d false (bare d) b s.
Proof.
  intros n d b s H. apply orb_false_iff in H. destruct H as [H1 H2].
  unfold is_block in H2. apply orb_false_iff in H2. destruct H2 as [H2 H3]. apply orb_false_iff in H2. destruct H2 as [H2 H4].
  unfold ClsSpec.expected, block_value, plain, bare. rewrite H1, H2, H3, H4. cbn [andb orb].
  now destruct b.
Qed.
Definition globals_ok (L : text -> bool) (u : univ) : Prop :=
  forall n c, glob u n = Some (GCls c) ->
  exists d, find M path n = Some (Good d) /\ described u n c d (final L n d).
Definition present (L : text -> bool) (u : univ) : Prop :=
  forall n, L n = true -> special n = true -> glob u n <> None.
Definition D (L : text -> bool) (u : univ) : Prop := Inv u /\ globals_ok L u /\ present L u.

Definition good_loader (L : text -> bool) (ld : text -> comp (option gval)) : Prop :=
  loads ld /\ forall n u, D L u ->
    only_grown u (snd (ld n u)) /\ globals_ok L (snd (ld n u)) /\
    forall v, fst (ld n u) = Ok (Some v) -> glob (snd (ld n u)) n = Some v.

Lemma present_grown : forall L u u', only_grown u u' -> present L u -> present L u'.
Proof.
  intros L u u' [_ G] P n HL HS. specialize (P n HL HS). destruct (glob u n) as [v|] eqn:E; [|congruence].
  rewrite (G n v E). discriminate.
Qed.

Lemma superclass_spec : forall L ld s u, good_loader L ld -> D L u ->
  D L (snd (superclass M ld s u)) /\ only_grown u (snd (superclass M ld s u)) /\
  forall i fs cfs, fst (superclass M ld s u) = Ok (Some (i, fs, cfs)) ->
    exists b, match s with Some x => x | None => str "Object" end <> str "nil" /\
      find M path (match s with Some x => x | None => str "Object" end) = Some (Good b) /\ declares path b fs cfs.
Proof.
  intros L ld s u [Hk Hl] (I & G & P). unfold superclass. fold t_Object t_nil.
  set (n := match s with Some x => x | None => t_Object end).
  destruct (text_eqb n t_nil) eqn:En.
  { unfold ret. cbn [fst snd]. split; [exact (conj I (conj G P))|]. split; [apply grown_refl|]. congruence. }
  apply text_eqb_neq in En.
  destruct (Hk n u I Logic.I) as (I1 & X1 & _).
  destruct (Hl n u (conj I (conj G P))) as (W & G1 & F).
  assert (P1 := present_grown L u _ W P).
  destruct (ld n u) as [[v|e] u1] eqn:E; cbn [fst snd] in *.
  2: { erewrite andthen_err by exact E. cbn [fst snd]. split; [exact (conj I1 (conj G1 P1))|]. split; [exact W|]. congruence. }
  erewrite andthen_step by exact E.
  destruct v as [[i|l i]|].
  2,3: unfold fail; cbn [fst snd]; split; [exact (conj I1 (conj G1 P1))|]; split; [exact W|]; congruence.
  specialize (F _ eq_refl). destruct (G1 n i F) as (d & Hf & fi & fc & k & mk & Hd).
  erewrite andthen_step by (apply get_some; exact (d_k _ _ _ _ _ _ _ _ _ Hd)).
  rewrite (d_fi _ _ _ _ _ _ _ _ _ Hd). erewrite andthen_step by reflexivity.
  rewrite (d_class _ _ _ _ _ _ _ _ _ Hd). erewrite andthen_step by reflexivity.
  erewrite andthen_step by (apply get_some; exact (d_mk _ _ _ _ _ _ _ _ _ Hd)).
  rewrite (d_fc _ _ _ _ _ _ _ _ _ Hd). erewrite andthen_step by reflexivity.
  unfold ret. cbn [fst snd]. split; [exact (conj I1 (conj G1 P1))|]. split; [exact W|].
  intros i' fs cfs Eq. exists d. split; [exact En|]. split; [exact Hf|].
  assert (fs = fi /\ cfs = fc) as [-> ->] by (split; congruence). exact (d_dec _ _ _ _ _ _ _ _ _ Hd).
Qed.

(** A class from a definition, before its primitives. *)
Lemma assemble_spec : forall L u sup d i u', D L u ->
  (forall j fs cfs, sup = Some (j, fs, cfs) -> svalid (Some (j, fs, cfs)) u /\
     exists b, super_name d <> str "nil" /\ find M path (super_name d) = Some (Good b) /\ declares path b fs cfs) ->
  assemble M sel is_prim 1 sup d u = (Ok i, u') ->
  described u' (c_name M d) i d (bare d) /\ length (u_cls u) < i /\ u_globs u' = u_globs u.
Proof.
  intros L u sup d i u' (I & G & P) Hs H.
  apply assemble_fresh in H. destruct H as (s & fs & cfs & sk & smc & mk & -> & H1 & H2 & H3 & -> & ->).
  destruct (Hs _ _ _ eq_refl) as (_ & b & N & F & Dc).
  cbn [u_globs]. split; [|split; [lia|reflexivity]].
  exists (fs ++ c_fields M d), (cfs ++ c_class_fields M d).
  eexists. eexists. split.
  - destruct (i_even u I) as (h & E). exists h. lia.
  - eapply dec_sub; eauto.
  - cbn [u_cls]. rewrite nth_error_app2 by lia.
    replace (S (length (u_cls u)) - length (u_cls u)) with 1 by lia. reflexivity.
  - cbn [u_cls pred]. rewrite nth_error_app2 by lia. rewrite Nat.sub_diag. reflexivity.
  - reflexivity.
  - reflexivity.
  - reflexivity.
  - reflexivity.
  - reflexivity.
  - reflexivity.
  - reflexivity.
  - reflexivity.
  - reflexivity.
  - intros x. unfold tab. cbn [k_table]. rewrite some_table_get. apply methods_table_get.
  - intros x. unfold tab. cbn [k_table pred]. rewrite some_table_get. apply methods_table_get.
Qed.

Lemma globals_grown_same : forall L u u', only_grown u u' -> u_globs u' = u_globs u -> globals_ok L u -> globals_ok L u'.
Proof.
  intros L u u' W E G n c H. unfold ClsModel.glob in H. rewrite E in H. destruct (G n c H) as (d & F & Hd).
  exists d. split; [exact F|]. eapply described_grown; eauto.
Qed.
Lemma assemble_globs : forall meta sup d u, u_globs (snd (assemble M sel is_prim meta sup d u)) = u_globs u.
Proof.
  intros meta sup d u. unfold assemble, andthen.
  assert (E := grown_get meta u). destruct (get M meta u) as [[mk|e] u1]; cbn [fst snd] in *; subst u1; [|reflexivity].
  destruct sup as [[[s fs] cfs]|]; [|reflexivity].
  assert (E := grown_get s u). destruct (get M s u) as [[sk|e] u1]; cbn [fst snd] in *; subst u1; [|reflexivity].
  unfold the, ret, fail, alloc. destruct (k_class sk) as [smc|]; reflexivity.
Qed.

Lemma good_grown : forall L ld, good_loader L ld -> forall n u, D L u -> only_grown u (snd (ld n u)).
Proof. intros L ld [_ H] n u Hu. now apply H. Qed.

Lemma compile_spec : forall L ld f u, good_loader L ld -> D L u ->
  let r := compile M sel is_prim 1 ld None f u in
  D L (snd r) /\ only_grown u (snd r) /\
  forall i, fst r = Ok i -> exists d, f = Good d /\ described (snd r) (c_name M d) i d (bare d) /\
     length (u_cls u) < i.
Proof.
  intros L ld f u Hl Hu r.
  assert (Ir : Inv (snd r)).
  { destruct Hu as (I & _). destruct (keeps_compile sel is_prim ld None f (proj1 Hl) u I Logic.I) as (A & _). exact A. }
  subst r. unfold compile in *. destruct f as [d| |s].
  - destruct (superclass_spec L ld (c_super M d) u Hl Hu) as (D1 & W1 & S1).
    destruct (keeps_superclass ld (c_super M d) (proj1 Hl) u (proj1 Hu) Logic.I) as (_ & _ & V1).
    destruct (superclass M ld (c_super M d) u) as [[sup|e] u1] eqn:E; cbn [fst snd] in *.
    2: { rewrite (andthen_err _ _ _ _ _ _ _ E) in *. cbn [fst snd]. split; [exact D1|]. split; [exact W1|]. congruence. }
    rewrite (andthen_step _ _ _ _ _ _ _ E) in *.
    assert (W2 := grown_assemble sel is_prim 1 sup d u1).
    assert (G2 := assemble_globs 1 sup d u1).
    split.
    { split; [exact Ir|]. split.
      - eapply globals_grown_same; eauto. apply D1.
      - eapply present_grown; [exact W2|]. apply D1. }
    split; [eapply grown_trans; eauto|].
    intros i Ei. destruct (assemble M sel is_prim 1 sup d u1) as [ri u2] eqn:E2. cbn [fst snd] in *. subst ri.
    exists d. split; [reflexivity|].
    destruct (assemble_spec L u1 sup d i u2 D1) as (A1 & A2 & A3); [|exact E2|].
    + intros j fs cfs ->. split; [now apply V1|]. exact (S1 j fs cfs eq_refl).
    + split; [exact A1|]. apply grown_length in W1. lia.
  - cbn. split; [exact Hu|]. split; [apply grown_refl|]. congruence.
  - destruct (superclass_spec L ld s u Hl Hu) as (D1 & W1 & S1).
    destruct (superclass M ld s u) as [[sup|e] u1] eqn:E; cbn [fst snd] in *.
    + rewrite (andthen_step _ _ _ _ _ _ _ E) in *. cbn. split; [exact D1|]. split; [exact W1|]. congruence.
    + rewrite (andthen_err _ _ _ _ _ _ _ E) in *. cbn. split; [exact D1|]. split; [exact W1|]. congruence.
Qed.

Lemma load_file_spec : forall L ld n u, good_loader L ld -> D L u ->
  let r := load_file 1 ld n None u in
  D L (snd r) /\ only_grown u (snd r) /\
  forall i, fst r = Ok (Some i) -> exists d, find M path n = Some (Good d) /\
    described (snd r) n i d (bare d) /\ length (u_cls u) < i.
Proof.
  intros L ld n u Hl Hu r. subst r. unfold ClsModel.load_file. destruct (find M path n) as [f|] eqn:Ef.
  2: { cbn. split; [exact Hu|]. split; [apply grown_refl|]. congruence. }
  destruct (compile_spec L ld f u Hl Hu) as (D1 & W1 & S1).
  destruct (compile M sel is_prim 1 ld None f u) as [[i|e] u1] eqn:E; cbn [fst snd] in *.
  2: { rewrite (andthen_err _ _ _ _ _ _ _ E). cbn. split; [exact D1|]. split; [exact W1|]. congruence. }
  rewrite (andthen_step _ _ _ _ _ _ _ E).
  destruct (S1 i eq_refl) as (d & -> & Hd & Li).
  assert (Hd' := Hd). destruct Hd' as (fi & fc & k & mk & R).
  erewrite andthen_step by (apply get_some; exact (d_k _ _ _ _ _ _ _ _ _ R)).
  rewrite (d_name _ _ _ _ _ _ _ _ _ R). erewrite andthen_step by reflexivity.
  assert (X : snd ((if text_eqb n (c_name M d) then ret M tt else exit M avoid) u1) = u1).
  { destruct (text_eqb n (c_name M d)); [reflexivity|]. apply grown_exit. }
  destruct ((if text_eqb n (c_name M d) then ret M tt else exit M avoid) u1) as [[[]|e] u2] eqn:Ex; cbn [snd] in X; subst u2.
  - rewrite (andthen_step _ _ _ _ _ _ _ Ex). cbn [ret fst snd]. split; [exact D1|]. split; [exact W1|].
    intros j Ej. assert (j = i) by congruence. subst j. exists d. split; [reflexivity|]. split; [|exact Li].
    assert (N : c_name M d = n).
    { destruct Hname as [Ha|Ha]; [|now apply Ha]. destruct (text_eqb n (c_name M d)) eqn:T.
      - apply text_eqb_eq in T. congruence.
      - unfold exit in Ex. rewrite Ha in Ex. unfold fail in Ex. congruence. }
    now rewrite N in Hd.
  - rewrite (andthen_err _ _ _ _ _ _ _ Ex). cbn. split; [exact D1|]. split; [exact W1|]. congruence.
Qed.

Lemma load_class_good : forall L fuel, good_loader L (load_class fuel 1).
Proof.
  intros L fuel. split; [exact (keeps_load_class sel is_prim known avoid path fuel)|].
  intros n u Hu. split; [apply grown_load_class|]. split.
  2: { intros v Ev. destruct (load_class fuel 1 n u) as [r u'] eqn:E. cbn [fst snd] in *. subst r.
       eapply load_class_found; eauto. }
  revert n u Hu. induction fuel as [|k IH]; intros n u Hu; [apply Hu|].
  cbn [ClsModel.load_class]. destruct (glob u n) as [v|] eqn:G; [apply Hu|].
  assert (Hl : good_loader L (load_class k 1)).
  { split; [exact (keeps_load_class sel is_prim known avoid path k)|].
    intros m w Hw. split; [apply grown_load_class|]. split; [now apply IH|].
    intros v Ev. destruct (load_class k 1 m w) as [r u'] eqn:E. cbn [fst snd] in *. subst r.
    eapply load_class_found; eauto. }
  destruct (load_file_spec L (load_class k 1) n u Hl Hu) as (D1 & W1 & S1).
  destruct (load_file 1 (load_class k 1) n None u) as [[r|e] u1] eqn:E; cbn [fst snd] in *.
  2: { rewrite (andthen_err _ _ _ _ _ _ _ E). apply D1. }
  rewrite (andthen_step _ _ _ _ _ _ _ E).
  destruct r as [i|].
  - destruct (S1 i eq_refl) as (d & Hf & Hd & Li).
    destruct (maybe_spec u1 n i d (bare d) false Hd) as (u2 & E2 & G2 & L2 & O2 & Hd2).
    rewrite (andthen_step _ _ _ _ _ _ _ E2). unfold andthen. cbn [option_map set_glob ret fst snd].
    change (Build_univ (u_cls u2) (tset (u_globs u2) n (Some (GCls i)))) with (snd (set_glob M n (Some (GCls i)) u2)).
    intros m c H. rewrite glob_set in H.
    destruct (text_eqb n m) eqn:T.
    + apply text_eqb_eq in T. subst m. assert (c = i) by congruence. subst c. exists d. split; [exact Hf|].
      apply (described_same u2); [|reflexivity|reflexivity]. unfold final. destruct (L n) eqn:Ln; [|exact Hd2].
      eapply described_ext; [|exact Hd2]. intros b s. symmetry. apply expected_plain.
      destruct (special n) eqn:Sp; [|reflexivity].
      exfalso. destruct Hu as (_ & _ & P). exact (P n Ln Sp G).
    + unfold ClsModel.glob in H. rewrite G2 in H. fold (glob u1 m) in H.
      (* the class of another name is an older one *)
      destruct D1 as (I1 & G1 & P1). destruct (G1 m c H) as (d' & Hf' & Hd').
      exists d'. split; [exact Hf'|].
      assert (N : c <> i).
      { intros ->. destruct Hd as (fi & fc & kk & mk & R). destruct Hd' as (fi' & fc' & kk' & mk' & R').
        assert (A := d_name _ _ _ _ _ _ _ _ _ R). assert (A' := d_name _ _ _ _ _ _ _ _ _ R').
        assert (B := d_k _ _ _ _ _ _ _ _ _ R). assert (B' := d_k _ _ _ _ _ _ _ _ _ R').
        apply text_eqb_neq in T. congruence. }
      assert (Oi : oddc i) by (destruct Hd as (fi & fc & kk & mk & R); exact (d_odd _ _ _ _ _ _ _ _ _ R)).
      assert (Oc : oddc c) by (destruct Hd' as (fi & fc & kk & mk & R); exact (d_odd _ _ _ _ _ _ _ _ _ R)).
      destruct Oi as (p & Ep). destruct Oc as (q & Eq).
      eapply described_same; [exact Hd'| |]; cbn [snd u_cls set_glob]; apply O2; lia.
  - cbn [maybe_primitives]. unfold andthen. cbn [option_map set_glob ret fst snd].
    change (Build_univ (u_cls u1) (tset (u_globs u1) n None)) with (snd (set_glob M n None u1)).
    intros m c H. rewrite glob_set in H. destruct (text_eqb n m); [discriminate|].
    destruct D1 as (I1 & G1 & P1). destruct (G1 m c H) as (d' & Hf' & Hd').
    exists d'. split; [exact Hf'|]. eapply described_same; [exact Hd'|reflexivity|reflexivity].
Qed.
End Decl.
