(** Requests only add to the universe; a second request changes nothing; fuel. *)
From Coq Require Import Bool String List Ascii Arith Lia.
From Verif Require Import Base LexModel ParseModel ClsModel ClsSpec.
Import ListNotations.

Lemma text_eqb_eq : forall a b, text_eqb a b = true <-> a = b.
Proof. intros a b. unfold text_eqb. destruct (list_eq_dec ascii_dec a b); split; congruence. Qed.
Lemma text_eqb_refl : forall a, text_eqb a a = true.
Proof. intros a. now apply text_eqb_eq. Qed.
Lemma text_eqb_neq : forall a b, text_eqb a b = false <-> a <> b.
Proof. intros a b. unfold text_eqb. destruct (list_eq_dec ascii_dec a b); split; congruence. Qed.

Lemma tget_tset : forall A (d : list (text * A)) n v m,
  tget (tset d n v) m = if text_eqb n m then Some v else tget d m.
Proof.
  intros A d n v m. induction d as [|[a w] r IH]; cbn [tset tget].
  - reflexivity.
  - destruct (text_eqb a n) eqn:E.
    + apply text_eqb_eq in E. subst a. cbn [tget]. destruct (text_eqb n m); reflexivity.
    + cbn [tget]. rewrite IH. destruct (text_eqb a m) eqn:F; [|reflexivity].
      apply text_eqb_eq in F. subst a.
      apply text_eqb_neq in E. assert (text_eqb n m = false) by (apply text_eqb_neq; congruence).
      now rewrite H.
Qed.
Lemma tset_same : forall A (d : list (text * A)) n v, tget d n = Some v -> tset d n v = d.
Proof.
  intros A d n v. induction d as [|[a w] r IH]; cbn [tset tget]; [discriminate|].
  destruct (text_eqb a n) eqn:E.
  - apply text_eqb_eq in E. intros H. congruence.
  - intros H. now rewrite IH.
Qed.

Section Grow.
Context {M : Type}.
Variable sel : M -> text.
Variable is_prim : M -> bool.
Variable known : text -> option (list (bool * text)).
Variable avoid : bool.
Variable path : list (text -> option (file M)).

Notation comp := (comp M).
Notation univ := (univ M).
Notation only_grown := (@only_grown M).
Notation load_class := (load_class M sel is_prim known avoid path).
Notation load_file := (load_file M sel is_prim avoid path).
Notation glob := (glob M).

Lemma grown_refl : forall u, only_grown u u.
Proof. intros u. split; [exists []; now rewrite app_nil_r|auto]. Qed.
Lemma grown_trans : forall a b c, only_grown a b -> only_grown b c -> only_grown a c.
Proof.
  intros a b c [[x Hx] G] [[y Hy] H]. split; [|auto].
  exists (x ++ y). rewrite Hy, Hx. now rewrite app_assoc.
Qed.
Lemma grown_cls : forall (u u' : univ) more, u_cls u' = u_cls u ++ more -> u_globs u' = u_globs u -> only_grown u u'.
Proof. intros u u' more H G. split; [now exists more|]. intros n v. unfold ClsModel.glob. now rewrite G. Qed.

Lemma andthen_ok : forall A B (x : comp A) (f : A -> comp B) u b u',
  andthen M x f u = (Ok b, u') -> exists a u1, x u = (Ok a, u1) /\ f a u1 = (Ok b, u').
Proof.
  intros A B x f u b u' H. unfold andthen in H. destruct (x u) as [[a|e] u1]; cbn in H.
  - now exists a, u1.
  - congruence.
Qed.

(** [P u (answer) u']: a relation that holds of every run of a step. *)
Lemma grown_then : forall A B (x : comp A) (f : A -> comp B) u,
  only_grown u (snd (x u)) ->
  (forall a u1, x u = (Ok a, u1) -> only_grown u1 (snd (f a u1))) ->
  only_grown u (snd (andthen M x f u)).
Proof.
  intros A B x f u Hx Hf. unfold andthen. destruct (x u) as [[a|e] u1] eqn:E; cbn in *; [|exact Hx].
  eapply grown_trans; [exact Hx|]. now apply Hf.
Qed.
Lemma grown_get : forall i u, snd (get M i u) = u.
Proof. intros i u. unfold get. now destruct (nth_error (u_cls u) i). Qed.
Lemma grown_the : forall A (o : option A) u, snd (the M o u) = u.
Proof. intros A [a|] u; reflexivity. Qed.

Ltac pure := match goal with
  | |- only_grown ?u (snd (get M ?i ?u)) => rewrite grown_get; apply grown_refl
  | |- only_grown ?u (snd (the M ?i ?u)) => rewrite grown_the; apply grown_refl
  | |- only_grown ?u (snd (ret M _ ?u)) => apply grown_refl
  | |- only_grown ?u (snd (fail M _ ?u)) => apply grown_refl
  | |- only_grown ?u ?u => apply grown_refl
  end.
Ltac steps := repeat first [pure | apply grown_then; [try pure | intros ? ? ?]].

Lemma grown_superclass : forall ld s u,
  (forall n u, only_grown u (snd (ld n u))) -> only_grown u (snd (superclass M ld s u)).
Proof.
  intros ld s u Hld. unfold superclass.
  destruct (text_eqb _ t_nil); [pure|]. apply grown_then; [apply Hld|]. intros v u1 _.
  destruct v as [[i|l i]|]; steps.
Qed.

Lemma grown_alloc : forall k u, only_grown u (snd (alloc M k u)).
Proof. intros k u. eapply grown_cls; reflexivity. Qed.

Lemma grown_assemble : forall meta sup c u, only_grown u (snd (assemble M sel is_prim meta sup c u)).
Proof.
  intros meta sup c u. unfold assemble. apply grown_then; [pure|]. intros mk u1 _.
  destruct sup as [[[s fs] cfs]|]; [|pure].
  apply grown_then; [pure|]. intros sk u2 _. apply grown_then; [pure|]. intros smc u3 _.
  apply grown_then; [apply grown_alloc|]. intros x u4 _. apply grown_alloc.
Qed.

Lemma grown_compile : forall meta ld f u,
  (forall n u, only_grown u (snd (ld n u))) -> only_grown u (snd (compile M sel is_prim meta ld None f u)).
Proof.
  intros meta ld f u Hld. unfold compile. destruct f as [c| |s].
  - apply grown_then; [now apply grown_superclass|]. intros sup u1 _. apply grown_assemble.
  - pure.
  - apply grown_then; [now apply grown_superclass|]. intros sup u1 _. pure.
Qed.

Lemma grown_exit : forall u, snd (exit M avoid u) = u.
Proof. intros u. unfold exit. now destruct avoid. Qed.

Lemma grown_load_file : forall meta ld n u,
  (forall n u, only_grown u (snd (ld n u))) -> only_grown u (snd (load_file meta ld n None u)).
Proof.
  intros meta ld n u Hld. unfold ClsModel.load_file. destruct (find M path n) as [f|]; [|pure].
  apply grown_then; [now apply grown_compile|]. intros i u1 _.
  apply grown_then; [pure|]. intros k u2 _. apply grown_then; [pure|]. intros cn u3 _.
  apply grown_then; [|intros ? ? ?; pure].
  destruct (text_eqb n cn); [pure|]. rewrite grown_exit. apply grown_refl.
Qed.

(** A class from a file is new, and so is its metaclass. *)
Lemma assemble_fresh : forall meta sup c u i u',
  assemble M sel is_prim meta sup c u = (Ok i, u') ->
  exists s fs cfs sk smc mk,
    sup = Some (s, fs, cfs) /\ nth_error (u_cls u) s = Some sk /\ k_class sk = Some smc /\
    nth_error (u_cls u) meta = Some mk /\
    i = S (length (u_cls u)) /\
    u' = Build_univ (u_cls u ++
      [{| k_name := Some (c_name _ c ++ t_class_suffix); k_super := Some smc;
          k_class := Some meta; k_slots := k_inst mk;
          k_fields := Some (cfs ++ c_class_fields _ c); k_inst := length (cfs ++ c_class_fields _ c);
          k_table := some_table M (methods_table M sel (length (u_cls u)) (c_class_methods _ c));
          k_prims := existsb is_prim (c_class_methods _ c) |};
       {| k_name := Some (c_name _ c); k_super := Some s;
          k_class := Some (length (u_cls u)); k_slots := length (cfs ++ c_class_fields _ c);
          k_fields := Some (fs ++ c_fields _ c); k_inst := length (fs ++ c_fields _ c);
          k_table := some_table M (methods_table M sel (S (length (u_cls u))) (c_methods _ c));
          k_prims := existsb is_prim (c_methods _ c) |}]) (u_globs u).
Proof.
  intros meta sup c u i u' H. unfold assemble in H.
  apply andthen_ok in H. destruct H as (mk & u1 & Hg & H). unfold get in Hg.
  destruct (nth_error (u_cls u) meta) as [mk'|] eqn:Em; [|congruence].
  assert (mk' = mk /\ u1 = u) as [-> ->] by (split; congruence). clear Hg.
  destruct sup as [[[s fs] cfs]|]; [|unfold fail in H; congruence].
  apply andthen_ok in H. destruct H as (sk & u1 & Hg & H). unfold get in Hg.
  destruct (nth_error (u_cls u) s) as [sk'|] eqn:Es; [|congruence].
  assert (sk' = sk /\ u1 = u) as [-> ->] by (split; congruence). clear Hg.
  apply andthen_ok in H. destruct H as (smc & u1 & Hg & H). unfold the in Hg.
  destruct (k_class sk) as [smc'|] eqn:Ec; [|unfold fail in Hg; congruence].
  unfold ret in Hg. assert (smc' = smc /\ u1 = u) as [-> ->] by (split; congruence). clear Hg.
  unfold andthen, alloc in H. cbn [fst snd u_cls u_globs] in H.
  exists s, fs, cfs, sk, smc, mk. repeat (split; [assumption || reflexivity|]).
  assert (Hi : i = length (u_cls u ++ [{| k_name := Some (c_name _ c ++ t_class_suffix); k_super := Some smc;
          k_class := Some meta; k_slots := k_inst mk;
          k_fields := Some (cfs ++ c_class_fields _ c); k_inst := length (cfs ++ c_class_fields _ c);
          k_table := some_table M (methods_table M sel (length (u_cls u)) (c_class_methods _ c));
          k_prims := existsb is_prim (c_class_methods _ c) |}])) by congruence.
  rewrite app_length in Hi. cbn [length] in Hi. split; [lia|].
  assert (Hu := f_equal snd H). cbn [snd] in Hu. rewrite <- Hu, <- app_assoc. reflexivity.
Qed.

Lemma nth_app_l : forall A (l m : list A) i x, nth_error l i = Some x -> nth_error (l ++ m) i = Some x.
Proof. intros A l m i x H. rewrite nth_error_app1; [exact H|]. apply nth_error_Some. congruence. Qed.
Lemma grown_nth : forall u u' i k, only_grown u u' -> nth_error (u_cls u) i = Some k -> nth_error (u_cls u') i = Some k.
Proof. intros u u' i k [[m Hm] _] H. rewrite Hm. now apply nth_app_l. Qed.
Lemma grown_length : forall u u', only_grown u u' -> length (u_cls u) <= length (u_cls u').
Proof. intros u u' [[m Hm] _]. rewrite Hm, app_length. lia. Qed.

(** Installing primitives touches the class and its metaclass only. *)
Lemma upd_length : forall (l : list (kls M)) i f, length (upd M l i f) = length l.
Proof. induction l as [|k r IH]; intros [|i] f; cbn; auto. Qed.
Lemma upd_app : forall (l m : list (kls M)) i f, length l <= i -> upd M (l ++ m) i f = l ++ upd M m (i - length l) f.
Proof.
  induction l as [|k r IH]; intros m i f H; cbn [app length] in *.
  - now rewrite Nat.sub_0_r.
  - destruct i as [|i]; [lia|]. cbn [upd]. rewrite IH by lia. now rewrite Nat.sub_succ.
Qed.
Definition at_least (n : nat) (u u' : univ) : Prop :=
  u_globs u' = u_globs u /\ length (u_cls u') = length (u_cls u) /\
  forall i, i < n -> nth_error (u_cls u') i = nth_error (u_cls u) i.
Lemma at_least_refl : forall n u, at_least n u u.
Proof. intros n u. unfold at_least. auto. Qed.
Lemma at_least_trans : forall n a b c, at_least n a b -> at_least n b c -> at_least n a c.
Proof.
  intros n a b c (A1 & A2 & A3) (B1 & B2 & B3). repeat split; try congruence.
  intros i H. rewrite B3 by assumption. now apply A3.
Qed.
Lemma nth_upd : forall (l : list (kls M)) i f j,
  nth_error (upd M l i f) j = if Nat.eqb i j then option_map f (nth_error l j) else nth_error l j.
Proof.
  induction l as [|k r IH]; intros i f j; cbn [upd].
  - destruct j; destruct (Nat.eqb i _); reflexivity.
  - destruct i as [|i], j as [|j]; cbn; auto.
Qed.
Lemma edit_at_least : forall n i f u, n <= i -> at_least n u (snd (edit M i f u)).
Proof.
  intros n i f u H. unfold edit. cbn [snd]. repeat split; cbn [u_cls u_globs].
  - apply upd_length.
  - intros j Hj. rewrite nth_upd. replace (Nat.eqb i j) with false; [reflexivity|].
    symmetry. apply Nat.eqb_neq. lia.
Qed.
Lemma install_at_least : forall l n i mi nm u, n <= i -> n <= mi -> at_least n u (snd (install M i mi nm l u)).
Proof.
  induction l as [|[b s] r IH]; intros n i mi nm u Hi Hm; cbn [install]; [apply at_least_refl|].
  unfold andthen. cbn [fst snd].
  unfold add_primitive. unfold edit at 1. cbn [fst].
  eapply at_least_trans; [|now apply IH].
  apply edit_at_least. destruct b; assumption.
Qed.
Lemma load_primitives_at_least : forall n i u k,
  nth_error (u_cls u) i = Some k -> n <= i -> (forall mi, k_class k = Some mi -> n <= mi) ->
  at_least n u (snd (load_primitives M known i u)).
Proof.
  intros n i u k Hk Hi Hm. unfold load_primitives, andthen, get. rewrite Hk. cbn [fst snd].
  destruct (k_name k) as [nm|]; cbn [the ret fail fst snd]; [|apply at_least_refl].
  destruct (known nm) as [l|]; [|apply at_least_refl].
  destruct (k_class k) as [mi|] eqn:E; cbn [the ret fail fst snd]; [|apply at_least_refl].
  apply install_at_least; auto.
Qed.
Lemma andthen_step : forall A B (x : comp A) (f : A -> comp B) u a u1,
  x u = (Ok a, u1) -> andthen M x f u = f a u1.
Proof. intros A B x f u a u1 H. unfold andthen. now rewrite H. Qed.
Lemma andthen_err : forall A B (x : comp A) (f : A -> comp B) u e u1,
  x u = (Err e, u1) -> andthen M x f u = (Err e, u1).
Proof. intros A B x f u a u1 H. unfold andthen. now rewrite H. Qed.
Lemma get_some : forall i u k, nth_error (u_cls u) i = Some k -> get M i u = (Ok k, u).
Proof. intros i u k H. unfold get. now rewrite H. Qed.
Lemma get_none : forall i u, nth_error (u_cls u) i = None -> get M i u = (Err UndefinedBehaviour, u).
Proof. intros i u H. unfold get. now rewrite H. Qed.
Lemma maybe_at_least : forall n i u k b,
  nth_error (u_cls u) i = Some k -> n <= i -> (forall mi, k_class k = Some mi -> n <= mi) ->
  at_least n u (snd (maybe_primitives M known (Some i) b u)).
Proof.
  intros n i u k b Hk Hi Hm. unfold maybe_primitives.
  erewrite andthen_step by (apply get_some; eassumption).
  destruct (k_class k) as [mi|] eqn:E; [|apply at_least_refl].
  erewrite andthen_step by reflexivity.
  destruct (nth_error (u_cls u) mi) as [mk|] eqn:Emk.
  - erewrite andthen_step by (apply get_some; eassumption).
    destruct (k_prims k || k_prims mk || b); [|apply at_least_refl].
    eapply load_primitives_at_least; eauto. intros x Hx. apply Hm. congruence.
  - erewrite andthen_err by (apply get_none; eassumption). apply at_least_refl.
Qed.
Lemma prefix_of_nth : forall A (a b : list A),
  (forall i, i < length a -> nth_error b i = nth_error a i) -> exists m, b = a ++ m.
Proof.
  intros A a. induction a as [|x r IH]; intros b H; [now exists b|].
  destruct b as [|y b]; [specialize (H 0 (Nat.lt_0_succ _)); discriminate|].
  assert (y = x) by (specialize (H 0 (Nat.lt_0_succ _)); cbn in H; congruence). subst y.
  destruct (IH b) as [m Hm].
  { intros i L. apply (H (S i)). cbn. lia. }
  exists m. now rewrite Hm.
Qed.
Lemma at_least_grown : forall u0 u u', only_grown u0 u -> at_least (length (u_cls u0)) u u' -> only_grown u0 u'.
Proof.
  intros u0 u u' [[m Hm] Hg] (A1 & A2 & A3). split.
  - apply prefix_of_nth. intros i L. rewrite A3 by assumption. rewrite Hm. now rewrite nth_error_app1.
  - intros n v. unfold ClsModel.glob. rewrite A1. apply Hg.
Qed.

(** What [load_file] answers. *)
Lemma load_file_fresh : forall meta ld n u i u',
  (forall n u, only_grown u (snd (ld n u))) ->
  load_file meta ld n None u = (Ok (Some i), u') ->
  exists k mi mk, nth_error (u_cls u') i = Some k /\ k_class k = Some mi /\ nth_error (u_cls u') mi = Some mk /\ length (u_cls u) <= i /\ length (u_cls u) <= mi.
Proof.
  intros meta ld n u i u' Hld H. unfold ClsModel.load_file in H.
  destruct (find M path n) as [f|]; [|unfold ret in H; congruence].
  apply andthen_ok in H. destruct H as (j & u1 & Hc & H).
  apply andthen_ok in H. destruct H as (k & u2 & Hk & H).
  assert (E2 := grown_get j u1). rewrite Hk in E2. cbn in E2. subst u2.
  apply andthen_ok in H. destruct H as (cn & u2 & Hn & H).
  assert (E2 := grown_the _ (k_name k) u1). rewrite Hn in E2. cbn in E2. subst u2.
  apply andthen_ok in H. destruct H as ([] & u2 & Hx & H).
  assert (u2 = u1).
  { destruct (text_eqb n cn); [unfold ret in Hx; congruence|].
    assert (E2 := grown_exit u1). rewrite Hx in E2. exact E2. }
  subst u2. unfold ret in H. assert (j = i /\ u1 = u') as [-> ->] by (split; congruence). clear H Hn Hx.
  unfold compile in Hc. destruct f as [c| |s].
  - apply andthen_ok in Hc. destruct Hc as (sup & u2 & Hs & Hc).
    assert (G := grown_superclass ld (c_super _ c) u Hld). rewrite Hs in G. cbn in G.
    apply grown_length in G.
    apply assemble_fresh in Hc. destruct Hc as (s & fs & cfs & sk & smc & mk & _ & _ & _ & _ & -> & ->).
    cbn [u_cls]. rewrite nth_error_app2 by lia.
    replace (S (length (u_cls u2)) - length (u_cls u2)) with 1 by lia. cbn [nth_error].
    eexists. eexists. eexists. split; [reflexivity|]. split; [reflexivity|].
    split; [rewrite nth_error_app2 by lia; rewrite Nat.sub_diag; reflexivity|]. lia.
  - unfold fail in Hc. congruence.
  - apply andthen_ok in Hc. destruct Hc as (sup & u2 & Hs & Hc). unfold fail in Hc. congruence.
Qed.

Lemma glob_set : forall n v u m,
  glob (snd (set_glob M n v u)) m = if text_eqb n m then v else glob u m.
Proof.
  intros n v u m. unfold set_glob, ClsModel.glob. cbn [snd u_globs]. rewrite tget_tset.
  destruct (text_eqb n m); [now destruct v|reflexivity].
Qed.
Lemma grown_set_glob : forall u n v u1,
  only_grown u u1 -> glob u n = None -> only_grown u (snd (set_glob M n v u1)).
Proof.
  intros u n v u1 [Hc Hg] N. split; [exact Hc|].
  intros m w H. rewrite glob_set. destruct (text_eqb n m) eqn:E; [|auto].
  apply text_eqb_eq in E. subst m. congruence.
Qed.

Lemma grown_load_class : forall fuel meta n u, only_grown u (snd (load_class fuel meta n u)).
Proof.
  induction fuel as [|k IH]; intros meta n u; cbn [ClsModel.load_class]; [apply grown_refl|].
  destruct (glob u n) as [v|] eqn:G; [apply grown_refl|].
  assert (Hld : forall n u, only_grown u (snd (load_class k meta n u))) by (intros; apply IH).
  assert (F := grown_load_file meta (load_class k meta) n u Hld).
  destruct (load_file meta (load_class k meta) n None u) as [[r|e] u1] eqn:E.
  2: { erewrite andthen_err by exact E. exact F. }
  erewrite andthen_step by exact E. cbn [snd] in F.
  assert (P : only_grown u (snd (maybe_primitives M known r false u1))).
  { destruct r as [i|]; [|exact F].
    apply load_file_fresh in E as (kk & mi & mk & H1 & H2 & H3 & H4 & H5); [|exact Hld].
    eapply at_least_grown; [exact F|]. eapply maybe_at_least; eauto. intros x Hx. congruence. }
  destruct (maybe_primitives M known r false u1) as [[[]|e] u2] eqn:E2; cbn [snd] in P.
  - erewrite andthen_step by exact E2. cbn [andthen snd].
    unfold andthen. apply grown_set_glob; assumption.
  - erewrite andthen_err by exact E2. exact P.
Qed.

(** A class that was answered can be found under its name. *)
Lemma load_class_found : forall fuel meta n u v u',
  load_class fuel meta n u = (Ok (Some v), u') -> glob u' n = Some v.
Proof.
  intros [|k] meta n u v u' H; cbn [ClsModel.load_class] in H; [unfold fail in H; congruence|].
  destruct (glob u n) as [w|] eqn:G; [congruence|].
  apply andthen_ok in H. destruct H as (r & u1 & _ & H).
  apply andthen_ok in H. destruct H as ([] & u2 & _ & H).
  apply andthen_ok in H. destruct H as ([] & u3 & Hs & H).
  unfold ret in H. assert (Er : option_map GCls r = Some v) by congruence.
  assert (u3 = u') by congruence. subst u3.
  assert (E := glob_set n (option_map GCls r) u2 n). rewrite Hs in E. cbn [snd] in E.
  rewrite E, text_eqb_refl. exact Er.
Qed.
Lemma load_class_missing : forall fuel meta n u u',
  load_class fuel meta n u = (Ok None, u') ->
  find M path n = None /\ u_cls u' = u_cls u /\ u_globs u' = tset (u_globs u) n None /\ glob u n = None.
Proof.
  intros [|k] meta n u u' H; cbn [ClsModel.load_class] in H; [unfold fail in H; congruence|].
  destruct (glob u n) as [w|] eqn:G; [congruence|].
  apply andthen_ok in H. destruct H as (r & u1 & Hf & H).
  apply andthen_ok in H. destruct H as ([] & u2 & Hm & H).
  apply andthen_ok in H. destruct H as ([] & u3 & Hs & H).
  unfold ret in H. assert (Er : option_map GCls r = None) by congruence.
  assert (u3 = u') by congruence. subst u3.
  destruct r as [i|]; [discriminate|]. cbn in Hm. unfold ret in Hm. assert (u2 = u1) by congruence. subst u2.
  unfold ClsModel.load_file in Hf. destruct (find M path n) as [f|].
  - exfalso. repeat (apply andthen_ok in Hf; destruct Hf as (? & ? & _ & Hf)). unfold ret in Hf. congruence.
  - unfold ret in Hf. assert (u1 = u) by congruence. subst u1.
    unfold set_glob in Hs. cbn [option_map] in Hs. split; [reflexivity|].
    assert (Eu := f_equal snd Hs). cbn [snd] in Eu. rewrite <- Eu. auto.
Qed.

(** Asking again. *)
Lemma load_again : forall fuel meta n u a u',
  load_class fuel meta n u = (Ok a, u') -> forall fuel', load_class (S fuel') meta n u' = (Ok a, u').
Proof.
  intros fuel meta n u [v|] u' H fuel'.
  - apply load_class_found in H. cbn [ClsModel.load_class]. now rewrite H.
  - destruct (load_class_missing _ _ _ _ _ H) as (Hf & Hc & Hg & _).
    cbn [ClsModel.load_class].
    assert (N : glob u' n = None).
    { unfold ClsModel.glob. rewrite Hg, tget_tset, text_eqb_refl. reflexivity. }
    rewrite N. unfold ClsModel.load_file. rewrite Hf. unfold andthen, ret, set_glob. cbn.
    rewrite tset_same; [now destruct u'|]. rewrite Hg, tget_tset, text_eqb_refl. reflexivity.
Qed.

(** Requests. *)
Lemma grown_serve : forall fuel meta q u, only_grown u (snd (serve M sel is_prim known avoid path fuel meta q u)).
Proof.
  intros fuel meta [n|f] u; cbn [serve]; [apply grown_load_class|].
  apply grown_then; [|intros ? ? ?; apply grown_refl].
  apply grown_compile. intros. apply grown_load_class.
Qed.
Lemma grown_run : forall qs fuel meta u, only_grown u (snd (run M sel is_prim known avoid path fuel meta qs u)).
Proof.
  induction qs as [|q r IH]; intros fuel meta u; cbn [run snd]; [apply grown_refl|].
  eapply grown_trans; [apply grown_serve|apply IH].
Qed.

(** * Fuel *)
Definition settled {A} (r : res A * univ) : Prop := fst r <> Err OutOfFuel.
(** More fuel gives the same result once there is enough. *)
Lemma superclass_mono : forall (ld ld' : text -> comp (option gval)) s u,
  (forall n u, settled (ld n u) -> ld' n u = ld n u) ->
  settled (superclass M ld s u) -> superclass M ld' s u = superclass M ld s u.
Proof.
  intros ld ld' s u Hl H. unfold superclass in *.
  destruct (text_eqb _ t_nil); [reflexivity|]. unfold andthen in *.
  rewrite Hl; [reflexivity|]. unfold settled in *.
  destruct (ld _ u) as [[v|e] u1]; cbn in *; congruence.
Qed.
Lemma compile_mono : forall (ld ld' : text -> comp (option gval)) meta sys f u,
  (forall n u, settled (ld n u) -> ld' n u = ld n u) ->
  settled (compile M sel is_prim meta ld sys f u) ->
  compile M sel is_prim meta ld' sys f u = compile M sel is_prim meta ld sys f u.
Proof.
  intros ld ld' meta sys f u Hl H. unfold compile in *. destruct f as [c| |s]; [|reflexivity|].
  - unfold andthen in *. rewrite (superclass_mono ld ld'); [reflexivity|exact Hl|].
    unfold settled in *. destruct (superclass M ld _ u) as [[v|e] u1]; cbn in *; congruence.
  - unfold andthen in *. rewrite (superclass_mono ld ld'); [reflexivity|exact Hl|].
    unfold settled in *. destruct (superclass M ld _ u) as [[v|e] u1]; cbn in *; congruence.
Qed.
Lemma load_file_mono : forall (ld ld' : text -> comp (option gval)) meta sys n u,
  (forall n u, settled (ld n u) -> ld' n u = ld n u) ->
  settled (load_file meta ld n sys u) -> load_file meta ld' n sys u = load_file meta ld n sys u.
Proof.
  intros ld ld' meta sys n u Hl H. unfold ClsModel.load_file in *.
  destruct (find M path n) as [f|]; [|reflexivity]. unfold andthen at 1. unfold andthen at 1 in H.
  unfold andthen at 3. rewrite (compile_mono ld ld'); [reflexivity|exact Hl|].
  unfold settled in *. destruct (compile M sel is_prim meta ld sys f u) as [[v|e] u1]; cbn in *; congruence.
Qed.
Lemma load_class_mono : forall fuel fuel' meta n u, fuel <= fuel' ->
  settled (load_class fuel meta n u) -> load_class fuel' meta n u = load_class fuel meta n u.
Proof.
  induction fuel as [|k IH]; intros fuel' meta n u L H.
  - exfalso. apply H. reflexivity.
  - destruct fuel' as [|k']; [lia|]. cbn [ClsModel.load_class] in *.
    destruct (glob u n) as [v|]; [reflexivity|].
    unfold andthen at 1. unfold andthen at 3.
    rewrite (load_file_mono (load_class k meta) (load_class k' meta)); [reflexivity| |].
    + intros m w. apply IH. lia.
    + unfold settled in *. unfold andthen at 1 in H.
      destruct (load_file meta (load_class k meta) n None u) as [[v|e] u1]; cbn in *; congruence.
Qed.
End Grow.
