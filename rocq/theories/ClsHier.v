(** The parallel hierarchy of classes and metaclasses is kept by every step after the
    allocation of the system classes. *)
From Coq Require Import Bool String List Ascii Arith Lia.
From Verif Require Import Base LexModel ParseModel ClsModel ClsSpec ClsGrow.
Import ListNotations.

Definition sys0 : system :=
  {| s_meta := 1; s_object := 3; s_nil := 5; s_class := 7; s_array := 9; s_symbol := 11;
     s_method := 13; s_integer := 15; s_primitive := 17; s_string := 19; s_double := 21 |}.
Definition oddc (c : nat) : Prop := exists i, c = S (2 * i).

Section Hier.
Context {M : Type}.
Variable sel : M -> text.
Variable is_prim : M -> bool.
Variable known : text -> option (list (bool * text)).
Variable avoid : bool.
Variable path : list (text -> option (file M)).

Notation comp := (comp M).
Notation univ := (univ M).
Notation load_class := (load_class M sel is_prim known avoid path).
Notation load_file := (load_file M sel is_prim avoid path).
Notation glob := (glob M).
Notation well u c := (well_made u 1 3 7 c).

Definition same (k k' : kls M) : Prop :=
  k_name k' = k_name k /\ k_super k' = k_super k /\ k_class k' = k_class k /\ k_slots k' = k_slots k /\
  (k_fields k <> None -> k_fields k' <> None).
Definition ext (u u' : univ) : Prop :=
  forall i k, nth_error (u_cls u) i = Some k -> exists k', nth_error (u_cls u') i = Some k' /\ same k k'.
Lemma same_refl : forall k, same k k.
Proof. intros k. unfold same. auto. Qed.
Lemma same_trans : forall a b c, same a b -> same b c -> same a c.
Proof. intros a b c (A1&A2&A3&A4&A5) (B1&B2&B3&B4&B5). repeat split; try congruence. auto. Qed.
Lemma ext_refl : forall u, ext u u.
Proof. intros u i k H. exists k. split; [exact H|apply same_refl]. Qed.
Lemma ext_trans : forall a b c, ext a b -> ext b c -> ext a c.
Proof.
  intros a b c H G i k E. destruct (H i k E) as (k1 & E1 & S1). destruct (G i k1 E1) as (k2 & E2 & S2).
  exists k2. split; [exact E2|]. eapply same_trans; eauto.
Qed.
Lemma ext_length : forall u u', ext u u' -> length (u_cls u) <= length (u_cls u').
Proof.
  intros u u' H. destruct (Nat.le_gt_cases (length (u_cls u)) (length (u_cls u'))) as [L|G]; [exact L|].
  destruct (nth_error (u_cls u) (length (u_cls u'))) as [k|] eqn:E.
  - destruct (H _ _ E) as (k' & E' & _). assert (length (u_cls u') < length (u_cls u')); [|lia].
    apply nth_error_Some. congruence.
  - apply nth_error_None in E. lia.
Qed.
Lemma ext_class : forall u u' c d, ext u u' -> class_of u c = Some d -> class_of u' c = Some d.
Proof.
  intros u u' c d H. unfold class_of. destruct (nth_error (u_cls u) c) eqn:E; [|discriminate].
  destruct (H _ _ E) as (k' & -> & S1&S2&S3&_). congruence.
Qed.
Lemma ext_name : forall u u' c d, ext u u' -> name_of u c = Some d -> name_of u' c = Some d.
Proof.
  intros u u' c d H. unfold name_of. destruct (nth_error (u_cls u) c) eqn:E; [|discriminate].
  destruct (H _ _ E) as (k' & -> & S1&S2&S3&_). congruence.
Qed.
Lemma ext_super : forall u u' c, ext u u' -> c < length (u_cls u) -> super_of u' c = super_of u c.
Proof.
  intros u u' c H L. unfold super_of. destruct (nth_error (u_cls u) c) eqn:E.
  - destruct (H _ _ E) as (k' & -> & S1&S2&S3&_). congruence.
  - apply nth_error_None in E. lia.
Qed.
Lemma super_lt : forall (u : univ) c s, super_of u c = Some s -> c < length (u_cls u).
Proof.
  intros u c s. unfold super_of. destruct (nth_error (u_cls u) c) eqn:E; [|discriminate]. intros _.
  apply nth_error_Some. congruence.
Qed.
Lemma class_lt : forall (u : univ) c s, class_of u c = Some s -> c < length (u_cls u).
Proof.
  intros u c s. unfold class_of. destruct (nth_error (u_cls u) c) eqn:E; [|discriminate]. intros _.
  apply nth_error_Some. congruence.
Qed.
Lemma ext_super_some : forall u u' c s, ext u u' -> super_of u c = Some s -> super_of u' c = Some s.
Proof. intros u u' c s H E. rewrite (ext_super u u'); [exact E|exact H|]. eapply super_lt; eauto. Qed.
Lemma ext_inherits : forall u u' c d, ext u u' -> inherits u c d -> inherits u' c d.
Proof.
  intros u u' c d H I. induction I as [c|c s d E I IH]; [apply inh_refl|].
  eapply inh_step; [|exact IH]. eapply ext_super_some; eauto.
Qed.
Lemma ext_well : forall u u' m o k c, ext u u' -> well_made u m o k c -> well_made u' m o k c.
Proof.
  intros u u' m o k c H (mc & n & H1 & H2 & H3 & H4 & H5 & H6).
  exists mc, n. repeat (split; [eapply ext_class || eapply ext_name; eassumption|]).
  split; [|eapply ext_inherits; eauto].
  rewrite (ext_super u u') by (eauto using class_lt).
  destruct (super_of u c) as [s|].
  - destruct H5 as (ms & A & B). exists ms. split; [eapply ext_class|eapply ext_super_some]; eauto.
  - destruct H5 as [A B]. split; [exact A|]. eapply ext_super_some; eauto.
Qed.

Definition valid (c : nat) (u : univ) : Prop := oddc c /\ c < length (u_cls u).
Lemma valid_ext : forall u u' c, ext u u' -> valid c u -> valid c u'.
Proof. intros u u' c H [O L]. split; [exact O|]. apply ext_length in H. lia. Qed.

Record Inv (u : univ) : Prop := {
  i_even : exists n, length (u_cls u) = 2 * n;
  i_fields : forall i k, nth_error (u_cls u) i = Some k -> k_fields k <> None;
  i_well : forall c, valid c u -> well u c;
  i_glob : forall n c, glob u n = Some (GCls c) -> valid c u;
  i_meta : valid 1 u;
  i_super : forall c s, oddc c -> super_of u c = Some s -> oddc s }.

Lemma inv_same : forall u u', Inv u -> ext u u' -> length (u_cls u') = length (u_cls u) ->
  (forall n c, glob u' n = Some (GCls c) -> valid c u') -> Inv u'.
Proof.
  intros u u' [A B C D E F] X L G. split.
  - now rewrite L.
  - intros i k' H. destruct (nth_error (u_cls u) i) as [k|] eqn:K.
    + destruct (X _ _ K) as (k2 & E2 & S1&S2&S3&S4&S5). assert (k2 = k') by congruence. subst k2. eauto.
    + apply nth_error_None in K. assert (i < length (u_cls u')) by (apply nth_error_Some; congruence). lia.
  - intros c [O V]. eapply ext_well; [exact X|]. apply C. split; [exact O|lia].
  - exact G.
  - eapply valid_ext; eauto.
  - intros c s O H. apply (F c); [exact O|]. rewrite <- (ext_super u u'); [exact H|exact X|].
    rewrite <- L. eapply super_lt; eauto.
Qed.

Definition keeps {A} (P : univ -> Prop) (x : comp A) (Q : A -> univ -> Prop) : Prop :=
  forall u, Inv u -> P u ->
  Inv (snd (x u)) /\ ext u (snd (x u)) /\ forall a, fst (x u) = Ok a -> Q a (snd (x u)).
Definition any {A} (a : A) (u : univ) : Prop := True.

Lemma keeps_then : forall A B P (x : comp A) Q (f : A -> comp B) R,
  keeps P x Q -> (forall a, keeps (Q a) (f a) R) -> keeps P (andthen M x f) R.
Proof.
  intros A B P x Q f R Hx Hf u I p. destruct (Hx u I p) as (I1 & E1 & q).
  unfold andthen. destruct (x u) as [[a|e] u1]; cbn [fst snd] in *.
  - destruct (Hf a u1 I1 (q a eq_refl)) as (I2 & E2 & r).
    split; [exact I2|]. split; [eapply ext_trans; eauto|exact r].
  - split; [exact I1|]. split; [exact E1|]. intros a H. discriminate.
Qed.
Lemma keeps_ret : forall A (a : A) (P : univ -> Prop) (Q : A -> univ -> Prop),
  (forall u, Inv u -> P u -> Q a u) -> keeps P (ret M a) Q.
Proof. intros A a P Q H u I p. cbn. split; [exact I|]. split; [apply ext_refl|]. intros b E.
  assert (b = a) by congruence. subst b. auto. Qed.
Lemma keeps_fail : forall A e P (Q : A -> univ -> Prop), keeps P (fail M e) Q.
Proof. intros A e P Q u I p. cbn. split; [exact I|]. split; [apply ext_refl|]. discriminate. Qed.
Lemma keeps_get : forall i (P : univ -> Prop) (Q : kls M -> univ -> Prop),
  (forall u k, Inv u -> P u -> nth_error (u_cls u) i = Some k -> Q k u) -> keeps P (get M i) Q.
Proof.
  intros i P Q H u I p. unfold get. destruct (nth_error (u_cls u) i) as [k|] eqn:E; cbn;
  (split; [exact I|]; split; [apply ext_refl|]); intros a F; [|discriminate].
  assert (a = k) by congruence. subst a. auto.
Qed.
Lemma keeps_the : forall A (o : option A) (P : univ -> Prop) (Q : A -> univ -> Prop),
  (forall u a, Inv u -> P u -> o = Some a -> Q a u) -> keeps P (the M o) Q.
Proof.
  intros A [a|] P Q H; [apply keeps_ret|apply keeps_fail]. intros u I p. auto.
Qed.
Lemma keeps_exit : forall P, keeps P (exit M avoid) (fun _ u => P u).
Proof. intros P. unfold exit. destruct avoid; [now apply keeps_ret|apply keeps_fail]. Qed.
Lemma keeps_weaken : forall A (P P' : univ -> Prop) (x : comp A) (Q Q' : A -> univ -> Prop),
  (forall u, Inv u -> P' u -> P u) -> (forall a u, Q a u -> Q' a u) -> keeps P x Q -> keeps P' x Q'.
Proof. intros A P P' x Q Q' H G K u I p. destruct (K u I (H u I p)) as (A1 & A2 & A3). auto. Qed.
(** Facts that grow with the universe. *)
Definition stable (P : univ -> Prop) : Prop := forall u u', ext u u' -> P u -> P u'.
Lemma keeps_also : forall A (P : univ -> Prop) (x : comp A) Q (S : univ -> Prop),
  stable S -> keeps P x Q -> keeps (fun u => P u /\ S u) x (fun a u => Q a u /\ S u).
Proof.
  intros A P x Q S Hs K u I [p s]. destruct (K u I p) as (A1 & A2 & A3).
  split; [exact A1|]. split; [exact A2|]. intros a E. split; [auto|]. eapply Hs; eauto.
Qed.
Lemma stable_valid : forall c, stable (valid c).
Proof. intros c u u' X. now apply valid_ext. Qed.

(** Steps that leave names, superclasses and metaclasses alone. *)
Lemma edit_ext : forall i f u, (forall k, same k (f k)) -> ext u (snd (edit M i f u)).
Proof.
  intros i f u Hf j k H. unfold edit. cbn [snd u_cls]. rewrite nth_upd, H.
  destruct (Nat.eqb i j); cbn [option_map]; eexists; (split; [reflexivity|]); [apply Hf|apply same_refl].
Qed.
Lemma keeps_edit : forall i f (P : univ -> Prop), stable P -> (forall k, same k (f k)) ->
  keeps P (edit M i f) (fun _ u => P u).
Proof.
  intros i f P Hs Hf u I p. assert (X := edit_ext i f u Hf).
  assert (L : length (u_cls (snd (edit M i f u))) = length (u_cls u)) by apply upd_length.
  split; [|split; [exact X|]].
  - eapply inv_same; [exact I|exact X|exact L|].
    intros n c H. eapply valid_ext; [exact X|]. apply (i_glob u I n). exact H.
  - intros a _. eapply Hs; eauto.
Qed.
Ltac same_tac := intros ?; unfold same; cbn; repeat split; auto; try discriminate.
Lemma keeps_set_table : forall i t b (P : univ -> Prop), stable P -> keeps P (set_table M i t b) (fun _ u => P u).
Proof.
  intros i t b P Hs. unfold set_table. eapply keeps_then; [apply keeps_get with (Q := fun _ u => P u); auto|].
  intros k. cbn beta. destruct t as [|e t], (k_table k);
    first [apply keeps_fail | apply keeps_edit; [exact Hs|same_tac]].
Qed.
Lemma keeps_set_fields : forall i fs (P : univ -> Prop), stable P -> keeps P (set_fields M i fs) (fun _ u => P u).
Proof. intros i fs P Hs. apply keeps_edit; [exact Hs|same_tac]. Qed.
Lemma keeps_add_primitive : forall i n c (P : univ -> Prop), stable P -> keeps P (add_primitive M i n c) (fun _ u => P u).
Proof. intros i n c P Hs. apply keeps_edit; [exact Hs|same_tac]. Qed.
Lemma keeps_install : forall l i mi n (P : univ -> Prop), stable P -> keeps P (install M i mi n l) (fun _ u => P u).
Proof.
  induction l as [|[b s] r IH]; intros i mi n P Hs; cbn [install]; [now apply keeps_ret|].
  eapply keeps_then; [now apply keeps_add_primitive|]. intros []. now apply IH.
Qed.
Lemma keeps_load_primitives : forall i (P : univ -> Prop), stable P ->
  keeps P (load_primitives M known i) (fun _ u => P u).
Proof.
  intros i P Hs. unfold load_primitives.
  eapply keeps_then; [apply keeps_get with (Q := fun _ u => P u); auto|]. intros k.
  eapply keeps_then; [apply keeps_the with (Q := fun _ u => P u); auto|]. intros n. cbn beta.
  destruct (known n); [|now apply keeps_ret].
  eapply keeps_then; [apply keeps_the with (Q := fun _ u => P u); auto|]. intros mi. now apply keeps_install.
Qed.
Lemma keeps_maybe : forall r b (P : univ -> Prop), stable P ->
  keeps P (maybe_primitives M known r b) (fun _ u => P u).
Proof.
  intros [i|] b P Hs; cbn [maybe_primitives]; [|now apply keeps_ret].
  eapply keeps_then; [apply keeps_get with (Q := fun _ u => P u); auto|]. intros k.
  eapply keeps_then; [apply keeps_the with (Q := fun _ u => P u); auto|]. intros mi.
  eapply keeps_then; [apply keeps_get with (Q := fun _ u => P u); auto|]. intros mk. cbn beta.
  destruct (k_prims k || k_prims mk || b); [now apply keeps_load_primitives|now apply keeps_ret].
Qed.

Definition gvalid (v : option gval) (u : univ) : Prop :=
  match v with Some (GCls c) => valid c u | _ => True end.
Lemma stable_gvalid : forall v, stable (gvalid v).
Proof. intros [[c|l c]|] u u' X; cbn; auto. now apply valid_ext. Qed.
Lemma keeps_set_glob : forall n v (P : univ -> Prop), stable P -> (forall u, P u -> gvalid v u) ->
  keeps P (set_glob M n v) (fun _ u => P u).
Proof.
  intros n v P Hs Hv u I p.
  assert (X : ext u (snd (set_glob M n v u))) by (intros i k E; exists k; split; [exact E|apply same_refl]).
  split; [|split; [exact X|intros a _; eapply Hs; eauto]].
  eapply inv_same; [exact I|exact X|reflexivity|].
  intros m c H. rewrite glob_set in H. destruct (text_eqb n m).
  - subst v. specialize (Hv u p). cbn in Hv. eapply valid_ext; eauto.
  - eapply valid_ext; [exact X|]. apply (i_glob u I m). exact H.
Qed.

(** The superclass, and a new pair of a metaclass and a class. *)
Definition svalid (s : option (nat * list text * list text)) (u : univ) : Prop :=
  match s with Some (i, _, _) => valid i u | None => True end.
Lemma stable_svalid : forall v, stable (svalid v).
Proof. intros [[[c fs] cfs]|] u u' X; cbn; auto. now apply valid_ext. Qed.
Definition loads (ld : text -> comp (option gval)) : Prop :=
  forall n, keeps (fun _ => True) (ld n) gvalid.
Lemma keeps_superclass : forall ld s, loads ld -> keeps (fun _ => True) (superclass M ld s) svalid.
Proof.
  intros ld s Hl. unfold superclass. destruct (text_eqb _ t_nil); [apply keeps_ret; cbn; auto|].
  eapply keeps_then; [apply Hl|]. intros [[i|l i]|]; try apply keeps_fail.
  eapply keeps_then; [apply keeps_get with (Q := fun _ => valid i); auto|]. intros k.
  eapply keeps_then; [apply keeps_the with (Q := fun _ => valid i); auto|]. intros fs.
  eapply keeps_then; [apply keeps_the with (Q := fun _ => valid i); auto|]. intros mi.
  eapply keeps_then; [apply keeps_get with (Q := fun _ => valid i); auto|]. intros mk.
  eapply keeps_then; [apply keeps_the with (Q := fun _ => valid i); auto|]. intros cfs.
  apply keeps_ret. cbn. auto.
Qed.

Lemma keeps_assemble : forall sup c, keeps (svalid sup) (assemble M sel is_prim 1 sup c) valid.
Proof.
  intros sup c u I p.
  destruct (assemble M sel is_prim 1 sup c u) as [[i|e] u'] eqn:E.
  2: { (* a failure leaves the universe as it was *)
    assert (u' = u).
    { unfold assemble, andthen in E. destruct (get M 1 u) as [[mk|e1] u1] eqn:G; cbn [fst snd] in E.
      - assert (X := grown_get 1 u). rewrite G in X. cbn in X. subst u1.
        destruct sup as [[[s fs] cfs]|]; [|unfold fail in E; congruence].
        destruct (get M s u) as [[sk|e1] u1] eqn:G2; cbn [fst snd] in E;
          assert (X := grown_get s u); rewrite G2 in X; cbn in X; subst u1; [|congruence].
        unfold the, ret, fail, alloc in E. destruct (k_class sk) as [smc|]; cbn [fst snd] in E; [discriminate|congruence].
      - assert (X := grown_get 1 u). rewrite G in X. cbn in X. congruence. }
    subst u'. cbn. split; [exact I|]. split; [apply ext_refl|]. discriminate. }
  cbn [fst snd].
  assert (X : ext u u').
  { intros j k H. exists k. split; [|apply same_refl].
    eapply grown_nth; [|exact H]. assert (G := grown_assemble sel is_prim 1 sup c u). now rewrite E in G. }
  apply assemble_fresh in E. destruct E as (s & fs & cfs & sk & smc & mk & -> & Hs & Hc & Hm & -> & ->).
  cbn [svalid] in p. set (len := length (u_cls u)) in *.
  destruct (i_even u I) as (h & Hlen). fold len in Hlen.
  match type of X with ext u ?w => set (u' := w) in * end.
  assert (Lu : length (u_cls u') = S (S len)).
  { unfold u'. cbn [u_cls]. rewrite app_length. cbn [length]. fold len. lia. }
  assert (N0 : nth_error (u_cls u') len = Some {| k_name := Some (c_name _ c ++ t_class_suffix); k_super := Some smc;
          k_class := Some 1; k_slots := k_inst mk;
          k_fields := Some (cfs ++ c_class_fields _ c); k_inst := length (cfs ++ c_class_fields _ c);
          k_table := some_table M (methods_table M sel len (c_class_methods _ c));
          k_prims := existsb is_prim (c_class_methods _ c) |}).
  { unfold u'. cbn [u_cls]. rewrite nth_error_app2 by (fold len; lia). fold len. rewrite Nat.sub_diag. reflexivity. }
  assert (N1 : nth_error (u_cls u') (S len) = Some {| k_name := Some (c_name _ c); k_super := Some s;
          k_class := Some len; k_slots := length (cfs ++ c_class_fields _ c);
          k_fields := Some (fs ++ c_fields _ c); k_inst := length (fs ++ c_fields _ c);
          k_table := some_table M (methods_table M sel (S len) (c_methods _ c));
          k_prims := existsb is_prim (c_methods _ c) |}).
  { unfold u'. cbn [u_cls]. rewrite nth_error_app2 by (fold len; lia). fold len.
    replace (S len - len) with 1 by lia. reflexivity. }
  assert (V : valid (S len) u').
  { split; [exists h; lia|lia]. }
  assert (W : well u s) by now apply (i_well u I).
  assert (Ws : class_of u s = Some smc) by (unfold class_of; now rewrite Hs).
  split; [|split; [exact X|intros a Ea; assert (a = S len) by congruence; now subst a]].
  split.
  - exists (S h). lia.
  - intros j k H. destruct (Nat.lt_ge_cases j len) as [L|G].
    + unfold u' in H. cbn [u_cls] in H. rewrite nth_error_app1 in H by exact L. exact (i_fields u I j k H).
    + assert (j < S (S len)) by (rewrite <- Lu; apply nth_error_Some; congruence).
      assert (D : j = len \/ j = S len) by lia. destruct D as [D|D]; rewrite D in H.
      * rewrite N0 in H. assert (Hk := f_equal (option_map k_fields) H). cbn in Hk. congruence.
      * rewrite N1 in H. assert (Hk := f_equal (option_map k_fields) H). cbn in Hk. congruence.
  - intros x [O Lx]. destruct (Nat.lt_ge_cases x len) as [L|G].
    + eapply ext_well; [exact X|]. apply (i_well u I). now split.
    + assert (x = S len).
      { destruct O as (q & Eq). lia. }
      subst x. exists len, (c_name _ c).
      unfold class_of at 1 2, name_of, super_of at 1. rewrite N0, N1. cbn [k_class k_name k_super].
      repeat (split; [reflexivity|]).
      split.
      * exists smc. split; [eapply ext_class; eauto|]. unfold super_of. rewrite N0. reflexivity.
      * destruct W as (mc & nn & _ & _ & _ & _ & _ & Wi). eapply inh_step; [|eapply ext_inherits; [exact X|exact Wi]].
        unfold super_of. now rewrite N1.
  - intros n x H. eapply valid_ext; [exact X|]. apply (i_glob u I n). exact H.
  - eapply valid_ext; [exact X|]. apply (i_meta u I).
  - intros x y O H. destruct (Nat.lt_ge_cases x len) as [L|G].
    + apply (i_super u I x); [exact O|]. rewrite <- (ext_super u u'); [exact H|exact X|exact L].
    + assert (x < S (S len)) by (rewrite <- Lu; eapply super_lt; eauto).
      assert (x = S len) by (destruct O as (q & Eq); lia). subst x.
      unfold super_of in H. rewrite N1 in H. cbn [k_super] in H. assert (y = s) by congruence. subst y. apply p.
Qed.

Lemma keeps_assemble_system : forall i sup c,
  keeps (valid i) (assemble_system M sel is_prim i sup c) valid.
Proof.
  intros i sup c. unfold assemble_system.
  destruct (match sup with Some (_, fs, cfs) => (fs, cfs) | None => ([], []) end) as [fs cfs].
  assert (St := stable_valid i).
  eapply keeps_then; [now apply keeps_set_table|]. intros [].
  eapply keeps_then; [now apply keeps_set_fields|]. intros [].
  eapply keeps_then; [apply keeps_get with (Q := fun _ => valid i); auto|]. intros k.
  eapply keeps_then; [apply keeps_the with (Q := fun _ => valid i); auto|]. intros mi.
  eapply keeps_then; [now apply keeps_set_table|]. intros [].
  eapply keeps_then; [now apply keeps_set_fields|]. intros [].
  now apply keeps_ret.
Qed.

Lemma keeps_compile : forall ld sys f, loads ld ->
  keeps (fun u => match sys with Some i => valid i u | None => True end)
    (compile M sel is_prim 1 ld sys f) valid.
Proof.
  intros ld sys f Hl. unfold compile. destruct f as [c| |s]; [|apply keeps_fail|].
  - set (S := fun u : univ => match sys with Some i => valid i u | None => True end).
    assert (St : stable S) by (intros u u' X; unfold S; destruct sys; auto; now apply valid_ext).
    eapply keeps_then with (Q := fun sup u => svalid sup u /\ S u).
    + eapply keeps_weaken; [| |apply keeps_also; [exact St|now apply keeps_superclass]]; cbn; auto.
    + intros sup. destruct sys as [i|].
      * eapply keeps_weaken; [| |apply keeps_assemble_system]; cbn; [tauto|auto].
      * eapply keeps_weaken; [| |apply keeps_assemble]; cbn; [tauto|auto].
  - eapply keeps_then with (Q := svalid); [|intros; apply keeps_fail].
    eapply keeps_weaken with (P := fun _ => True) (Q := svalid); [auto|auto|]. now apply keeps_superclass.
Qed.

Lemma keeps_load_file : forall ld n sys, loads ld ->
  keeps (fun u => match sys with Some i => valid i u | None => True end)
    (load_file 1 ld n sys) (fun r u => match r with Some i => valid i u | None => True end).
Proof.
  intros ld n sys Hl. unfold ClsModel.load_file. destruct (find M path n) as [f|]; [|apply keeps_ret; auto].
  eapply keeps_then; [now apply keeps_compile|]. intros i.
  eapply keeps_then; [apply keeps_get with (Q := fun _ => valid i); auto|]. intros k.
  eapply keeps_then; [apply keeps_the with (Q := fun _ => valid i); auto|]. intros cn.
  eapply keeps_then with (Q := fun _ => valid i).
  - cbn beta. destruct (text_eqb n cn); [now apply keeps_ret|apply keeps_exit].
  - intros []. apply keeps_ret. auto.
Qed.

Lemma keeps_load_class : forall fuel n, keeps (fun _ => True) (load_class fuel 1 n) gvalid.
Proof.
  induction fuel as [|k IH]; intros n; [apply keeps_fail|].
  intros u I _. cbn [ClsModel.load_class]. destruct (glob u n) as [v|] eqn:G.
  - cbn. split; [exact I|]. split; [apply ext_refl|]. intros a E. assert (a = Some v) by congruence. subst a.
    destruct v as [c|l c]; [|exact Logic.I]. now apply (i_glob u I n).
  - revert u I G. 
    assert (K : keeps (fun _ => True)
      (andthen M (load_file 1 (load_class k 1) n None) (fun r =>
       andthen M (maybe_primitives M known r false) (fun _ =>
       andthen M (set_glob M n (option_map GCls r)) (fun _ => ret M (option_map GCls r))))) gvalid).
    { eapply keeps_then; [exact (keeps_load_file (load_class k 1) n None IH)|]. intros r.
      assert (St : stable (gvalid (option_map GCls r))) by apply stable_gvalid.
      assert (Eq : forall u, match r with Some i => valid i u | None => True end -> gvalid (option_map GCls r) u)
        by (intros u; destruct r; cbn; auto).
      eapply keeps_then with (Q := fun _ => gvalid (option_map GCls r)).
      - eapply keeps_weaken; [| |apply keeps_maybe; exact St]; cbn; auto.
      - intros []. eapply keeps_then; [apply keeps_set_glob; [exact St|auto]|]. intros [].
        apply keeps_ret. auto. }
    intros u I _. now apply K.
Qed.

(** * Start-up *)
Definition allocated : univ := Eval vm_compute in snd (allocate M empty).
Definition base : univ := Eval vm_compute in snd (initialize M sys0 allocated).
Lemma allocate_ok : allocate M empty = (Ok sys0, allocated).
Proof. vm_compute. reflexivity. Qed.
Lemma initialize_ok : initialize M sys0 allocated = (Ok tt, base).
Proof. vm_compute. reflexivity. Qed.

Lemma base_well : forall c, valid c base -> well base c.
Proof.
  intros c [(i & ->) L]. change (length (u_cls base)) with 22 in L.
  assert (D : i < 11) by lia. clear L.
  assert (O : forall c, super_of base c = Some 3 -> inherits base c 3).
  { intros c H. eapply inh_step; [exact H|apply inh_refl]. }
  do 11 (destruct i as [|i]; [
    eexists; eexists; repeat (split; [reflexivity|]);
    split; [first [split; reflexivity | eexists; split; reflexivity]|];
    first [apply inh_refl | apply O; reflexivity
          | eapply inh_step; [reflexivity|apply O; reflexivity]]|]).
  lia.
Qed.
Lemma base_inv : Inv base.
Proof.
  split.
  - now exists 11.
  - intros i k H. assert (L : i < 22).
    { change 22 with (length (u_cls base)). apply nth_error_Some. congruence. }
    do 22 (destruct i as [|i]; [
      assert (E := f_equal (option_map k_fields) H); cbn in E; congruence|]). lia.
  - exact base_well.
  - intros n c H. assert (C : forall l : list (text * option gval),
      Forall (fun p => match snd p with Some (GCls c) => valid c base | _ => True end) l ->
      forall n c, match tget l n with Some (Some v) => Some v | _ => None end = Some (GCls c) -> valid c base).
    { clear. induction l as [|[m v] r IH]; intros F n c H; cbn [tget] in H; [discriminate|].
      inversion F as [|? ? F1 F2]; subst. destruct (text_eqb m n); [|eapply IH; eauto].
      destruct v as [v|]; [|discriminate]. assert (v = GCls c) by congruence. subst v. exact F1. }
    revert H. apply C. 
    assert (V : forall i, i < 11 -> valid (S (2 * i)) base).
    { intros i L. split; [now exists i|]. change (length (u_cls base)) with 22. lia. }
    repeat constructor; cbn [snd];
      [ apply (V 1) | apply (V 3) | apply (V 0) | apply (V 2) | apply (V 4) | apply (V 6) | apply (V 7)
      | apply (V 8) | apply (V 9) | apply (V 5) | apply (V 10) ]; lia.
  - split; [now exists 0|]. change (length (u_cls base)) with 22. lia.
  - intros c s (i & ->) H.
    assert (L : S (2 * i) < 22).
    { change 22 with (length (u_cls base)). eapply super_lt; eauto. }
    assert (E : s = 3 \/ s = 7 \/ s = 19).
    { do 11 (destruct i as [|i]; [
        cbn in H; first [discriminate | left; congruence | right; left; congruence | right; right; congruence]|]).
      lia. }
    destruct E as [E | [E | E]]; rewrite E; [now exists 1|now exists 3|now exists 9].
Qed.

Lemma keeps_load_system : forall fuel i, keeps (valid i)
  (load_system_class M sel is_prim known avoid path fuel 1 i) (fun _ => valid i).
Proof.
  intros fuel i. assert (St := stable_valid i). unfold load_system_class.
  eapply keeps_then; [apply keeps_get with (Q := fun _ => valid i); auto|]. intros k.
  eapply keeps_then; [apply keeps_the with (Q := fun _ => valid i); auto|]. intros n.
  eapply keeps_then with (Q := fun _ => valid i).
  - intros u I v.
    destruct (keeps_load_file (load_class fuel 1) n (Some i) (keeps_load_class fuel) u I v) as (A1 & A2 & A3).
    split; [exact A1|]. split; [exact A2|]. intros r Er. eapply valid_ext; eauto.
  - intros r. eapply keeps_then with (Q := fun _ => valid i).
    + destruct r; [now apply keeps_ret|apply keeps_exit].
    + intros []. now apply keeps_maybe.
Qed.
Lemma keeps_load_all : forall fuel l, keeps (fun u => Forall (fun i => valid i u) l)
  (load_all M sel is_prim known avoid path fuel 1 l) (fun _ _ => True).
Proof.
  intros fuel. induction l as [|i r IH]; cbn [load_all]; [apply keeps_ret; auto|].
  eapply keeps_then with (Q := fun _ u => Forall (fun i => valid i u) r); [|intros []; exact IH].
  intros u I F. inversion F as [|? ? F1 F2]; subst.
  destruct (keeps_load_system fuel i u I F1) as (A1 & A2 & A3).
  split; [exact A1|]. split; [exact A2|]. intros _ _.
  eapply Forall_impl; [|exact F2]. intros j. now apply valid_ext.
Qed.
Lemma keeps_need : forall fuel n (S : univ -> Prop), stable S ->
  keeps S (need_class M sel is_prim known avoid path fuel 1 n) (fun i u => valid i u /\ S u).
Proof.
  intros fuel n S St. unfold need_class.
  eapply keeps_then with (Q := fun v u => gvalid v u /\ S u).
  - eapply keeps_weaken; [| |apply keeps_also; [exact St|apply keeps_load_class]]; cbn; auto.
  - intros [[i|l i]|]; try apply keeps_fail. now apply keeps_ret.
Qed.
Lemma keeps_make_block : forall fuel n k (S : univ -> Prop), stable S ->
  keeps S (make_block_class M sel is_prim known avoid path fuel 1 n k) (fun _ => S).
Proof.
  intros fuel n k S St. unfold make_block_class.
  eapply keeps_then with (Q := fun (r : option nat) u => match r with Some i => valid i u | None => True end /\ S u).
  - eapply keeps_weaken with (P := fun u => True /\ S u); [| |
      apply keeps_also; [exact St|exact (keeps_load_file (load_class fuel 1) n None (keeps_load_class fuel))]];
      cbn; auto.
  - intros r.
    eapply keeps_then with (Q := fun i u => valid i u /\ S u).
    { apply keeps_the. intros u i _ H E. subst r. exact H. }
    intros i. assert (St' : stable (fun u => valid i u /\ S u)).
    { intros u u' X [A B]. split; [eapply valid_ext; eauto|eapply St; eauto]. }
    eapply keeps_then; [now apply keeps_add_primitive|]. intros [].
    eapply keeps_then; [apply keeps_set_glob; [exact St'|cbn; tauto]|]. intros [].
    apply keeps_ret. tauto.
Qed.
Lemma keeps_specials : forall fuel,
  keeps (valid 5) (specials M sel is_prim known avoid path fuel sys0) (fun _ _ => True).
Proof.
  intros fuel. unfold specials. cbn [sys0 s_meta s_nil].
  eapply keeps_then with (Q := fun b u => gvalid b u /\ valid 5 u).
  { eapply keeps_weaken; [| |apply keeps_also; [apply (stable_valid 5)|apply keeps_load_class]]; cbn; auto. }
  intros b. assert (S0 : stable (fun u => gvalid b u /\ valid 5 u)).
  { intros u u' X [A B]. split; [eapply stable_gvalid; eauto|eapply valid_ext; eauto]. }
  eapply keeps_then; [now apply keeps_need|]. intros t.
  assert (S1 : stable (fun u => valid t u /\ gvalid b u /\ valid 5 u)).
  { intros u u' X [A B]. split; [eapply valid_ext; eauto|eapply S0; eauto]. }
  eapply keeps_then; [now apply keeps_load_primitives|]. intros [].
  eapply keeps_then; [now apply keeps_need|]. intros f.
  assert (S2 : stable (fun u => valid f u /\ valid t u /\ gvalid b u /\ valid 5 u)).
  { intros u u' X [A B]. split; [eapply valid_ext; eauto|eapply S1; eauto]. }
  eapply keeps_then; [now apply keeps_load_primitives|]. intros [].
  eapply keeps_then; [now apply keeps_need|]. intros y.
  set (S3 := fun u => valid y u /\ valid f u /\ valid t u /\ gvalid b u /\ valid 5 u).
  assert (S4 : stable S3).
  { intros u u' X [A B]. split; [eapply valid_ext; eauto|eapply S2; eauto]. }
  do 9 (eapply keeps_then with (Q := fun _ => S3);
    [apply keeps_set_glob; [exact S4|unfold S3; cbn; tauto]|intros []]).
  do 3 (eapply keeps_then with (Q := fun _ => S3); [apply keeps_make_block; exact S4|intros _]).
  destruct b as [[c|l c]|]; try apply keeps_fail. apply keeps_ret. auto.
Qed.

Definition after_base (fuel : nat) : comp system :=
  andthen M (load_all M sel is_prim known avoid path fuel 1 (load_order sys0))
    (fun _ => andthen M (specials M sel is_prim known avoid path fuel sys0) (fun _ => ret M sys0)).
Lemma start_eq : forall fuel, start M sel is_prim known avoid path fuel empty = after_base fuel base.
Proof.
  intros fuel. unfold start.
  etransitivity; [exact (andthen_step _ _ _ _ _ _ _ allocate_ok)|].
  etransitivity; [exact (andthen_step _ _ _ _ _ _ _ initialize_ok)|]. reflexivity.
Qed.
Lemma start_inv : forall fuel s u,
  start M sel is_prim known avoid path fuel empty = (Ok s, u) -> s = sys0 /\ Inv u /\ ext base u.
Proof.
  intros fuel s u H. rewrite start_eq in H.
  assert (V : forall i, i < 11 -> valid (S (2 * i)) base).
  { intros i L. split; [now exists i|]. change (length (u_cls base)) with 22. lia. }
  assert (K : keeps (fun w => Forall (fun i => valid i w) (load_order sys0) /\ valid 5 w)
    (after_base fuel)
    (fun r _ => r = sys0)).
  { eapply keeps_then.
    - apply keeps_also; [apply (stable_valid 5)|apply keeps_load_all].
    - intros []. eapply keeps_then; [eapply keeps_weaken; [| |apply keeps_specials]|].
      + cbn. tauto.
      + intros a w. exact (fun x => x).
      + intros []. apply keeps_ret. auto. }
  destruct (K base base_inv) as (A1 & A2 & A3).
  { split; [|apply (V 2); lia].
    repeat constructor; cbn [sys0 s_meta s_object s_nil s_class s_array s_symbol s_method s_integer s_primitive s_string s_double];
      [ apply (V 1) | apply (V 3) | apply (V 0) | apply (V 2) | apply (V 4) | apply (V 6) | apply (V 9)
      | apply (V 5) | apply (V 7) | apply (V 8) | apply (V 10) ]; lia. }
  rewrite H in A1, A2, A3. cbn [fst snd] in *. split; [now apply A3|]. now split.
Qed.

(** Requests. *)
Lemma keeps_serve : forall fuel q,
  keeps (fun _ => True) (serve M sel is_prim known avoid path fuel 1 q) gvalid.
Proof.
  intros fuel [n|f]; cbn [serve]; [apply keeps_load_class|].
  eapply keeps_then; [exact (keeps_compile (load_class fuel 1) None f (keeps_load_class fuel))|].
  intros i. apply keeps_ret. auto.
Qed.
Lemma run_inv : forall qs fuel u, Inv u ->
  let r := run M sel is_prim known avoid path fuel 1 qs u in
  Inv (snd r) /\ ext u (snd r) /\ forall a, In (Ok a) (fst r) -> gvalid a (snd r).
Proof.
  induction qs as [|q r IH]; intros fuel u I; cbn [run fst snd].
  - split; [exact I|]. split; [apply ext_refl|]. intros a [].
  - destruct (keeps_serve fuel q u I Logic.I) as (A1 & A2 & A3).
    destruct (IH fuel _ A1) as (B1 & B2 & B3).
    split; [exact B1|]. split; [eapply ext_trans; eauto|].
    intros a [E|E]; [|now apply B3]. eapply stable_gvalid; [exact B2|]. now apply A3.
Qed.
Lemma reachable_valid : forall u answers c, Inv u -> (forall a, In (Ok a) answers -> gvalid a u) ->
  reachable u answers c -> valid c u.
Proof.
  intros u answers c I A R. induction R as [n c H|c H|c s R IH H].
  - now apply (i_glob u I n).
  - apply (A _ H).
  - assert (O := i_super u I c s (proj1 IH) H). split; [exact O|].
    destruct (i_well u I c IH) as (mc & n & _ & _ & _ & _ & W & _). rewrite H in W.
    destruct W as (ms & W & _). eapply class_lt; eauto.
Qed.
End Hier.
