(** After start-up, and after every request, the named classes are those of their
    files. *)
From Coq Require Import Bool String List Ascii Arith Lia.
From Verif Require Import Base LexModel ParseModel ClsModel ClsSpec ClsGrow ClsHier ClsDecl ClsStart.
Import ListNotations.

Section Boot.
Context {M : Type}.
Variable sel : M -> text.
Variable is_prim : M -> bool.
Variable known : text -> option (list (bool * text)).
Variable avoid : bool.
Variable path : list (text -> option (file M)).
Variable Hname : avoid = false \/ files_named path.
Variable Hconf : conforming path.
Variable Hknown : forall n, is_block n = true -> known n = None.

Notation comp := (comp M).
Notation univ := (univ M).
Notation load_class := (load_class M sel is_prim known avoid path).
Notation load_file := (load_file M sel is_prim avoid path).
Notation glob := (glob M).
Notation described := (described is_prim path).
Notation expected := (expected sel is_prim known).
Notation plain := (plain is_prim known).
Notation bare := (bare sel).
Notation D := (D sel is_prim known path).
Notation globals_ok := (globals_ok sel is_prim known path).
Notation final := (final sel is_prim known).

(** The special classes still to be completed. *)
Definition but (ex : list text) (n : text) : bool := negb (mem n ex).
Lemma but_cons : forall n ex m, m <> n -> but (n :: ex) m = but ex m.
Proof.
  intros n ex m H. unfold but, mem. cbn [existsb]. replace (text_eqb m n) with false; [reflexivity|].
  symmetry. now apply text_eqb_neq.
Qed.
Lemma but_head : forall n ex, but (n :: ex) n = false.
Proof. intros n ex. unfold but, mem. cbn [existsb]. now rewrite text_eqb_refl. Qed.
Lemma final_cons : forall n ex m d, m <> n -> final (but (n :: ex)) m d = final (but ex) m d.
Proof. intros n ex m d H. unfold ClsDecl.final. now rewrite but_cons. Qed.

Lemma desc_names : forall u n m c d d' t t', described u n c d t -> described u m c d' t' -> n = m.
Proof.
  intros u n m c d d' t t' (fi & fc & k & mk & R) (fi' & fc' & k' & mk' & R').
  assert (A := d_name _ _ _ _ _ _ _ _ _ _ _ R). assert (B := d_name _ _ _ _ _ _ _ _ _ _ _ R').
  assert (A' := d_k _ _ _ _ _ _ _ _ _ _ _ R). assert (B' := d_k _ _ _ _ _ _ _ _ _ _ _ R'). congruence.
Qed.
Lemma desc_odd : forall u n c d t, described u n c d t -> oddc c.
Proof. intros u n c d t (fi & fc & k & mk & R). exact (d_odd _ _ _ _ _ _ _ _ _ _ _ R). Qed.

Lemma D_load : forall L fuel n u r u', D L u -> load_class fuel 1 n u = (r, u') -> D L u' /\ only_grown u u'.
Proof.
  intros L fuel n u r u' (I & G & P) E.
  destruct (load_class_good sel is_prim known avoid path Hname L fuel) as [Hk Hl].
  destruct (Hk n u I Logic.I) as (I1 & _). destruct (Hl n u (conj I (conj G P))) as (W & G1 & _).
  rewrite E in *. cbn [snd] in *. split; [|exact W]. split; [exact I1|]. split; [exact G1|].
  eapply present_grown; eauto.
Qed.

Lemma D_obj : forall L n l c u u', D L u -> special n = false -> 
  set_glob M n (Some (GObj l c)) u = (Ok tt, u') -> D L u' /\ forall m, m <> n -> glob u' m = glob u m.
Proof.
  intros L n l c u u' (I & G & P) Sp E.
  assert (E' : u' = snd (set_glob M n (Some (GObj l c)) u)) by now rewrite E. clear E.
  assert (Gl : forall m, glob u' m = if text_eqb n m then Some (GObj l c) else glob u m)
    by (intros m; rewrite E'; apply glob_set).
  assert (C : u_cls u' = u_cls u) by now rewrite E'.
  split.
  - split; [|split].
    + assert (K := keeps_set_glob (M := M) n (Some (GObj l c)) (fun _ => True)).
      rewrite E'. apply K; [intros ? ? ? ?; exact Logic.I|intros ? ?; exact Logic.I|exact I|exact Logic.I].
    + intros m d H. rewrite Gl in H. destruct (text_eqb n m); [discriminate|].
      destruct (G m d H) as (x & F & Hd). exists x. split; [exact F|].
      eapply described_same; [exact Hd| |]; now rewrite C.
    + intros m A B. rewrite Gl. destruct (text_eqb n m) eqn:T; [discriminate|]. now apply P.
  - intros m H. rewrite Gl. replace (text_eqb n m) with false; [reflexivity|].
    symmetry. apply text_eqb_neq. congruence.
Qed.

Lemma set_again : forall n v u, glob u n = Some v -> set_glob M n (Some v) u = (Ok tt, u).
Proof.
  intros n v u H. unfold set_glob. unfold ClsModel.glob in H.
  destruct (tget (u_globs u) n) as [[w|]|] eqn:E; try discriminate.
  rewrite tset_same by congruence. now destruct u.
Qed.

Lemma expected_built : forall n d b s, always n = true -> is_block n = false ->
  built known n (plain n d false (bare d)) b s = expected n d b s.
Proof.
  intros n d b s A B. rewrite <- (expected_sys sel is_prim known n d b s A B).
  unfold built, ClsDecl.plain. cbn [orb]. destruct (has_builtin known n b s); [now rewrite ?andb_true_r|].
  now rewrite ?andb_false_r.
Qed.

Lemma D_prims : forall n ex c u u', D (but (n :: ex)) u -> glob u n = Some (GCls c) ->
  always n = true -> is_block n = false -> mem n ex = false ->
  load_primitives M known c u = (Ok tt, u') -> D (but ex) u' /\ u_globs u' = u_globs u.
Proof.
  intros n ex c u u' (I & G & P) Gn A B X E.
  destruct (G n c Gn) as (d & F & Hd). unfold ClsDecl.final in Hd. rewrite but_head in Hd.
  destruct (load_primitives_spec is_prim known path u n c d _ Hd) as (w & Ew & Gw & Lw & Ow & Dw).
  assert (w = u') by congruence. subst w.
  assert (Gl : forall m, glob u' m = glob u m) by (intros m; unfold ClsModel.glob; now rewrite Gw).
  split; [|exact Gw]. split; [|split].
  - assert (K := keeps_load_primitives (M := M) known c (fun _ => True)).
    destruct (K (fun _ _ _ _ => Logic.I) u I Logic.I) as (K1 & _). now rewrite E in K1.
  - intros m c' H. rewrite Gl in H. destruct (text_eqb n m) eqn:T.
    + apply text_eqb_eq in T. subst m. assert (c' = c) by congruence. subst c'. exists d. split; [exact F|].
      eapply described_ext; [|exact Dw]. intros b s. rewrite (expected_built n d b s A B).
      unfold ClsDecl.final, but. now rewrite X.
    + apply text_eqb_neq in T. destruct (G m c' H) as (d' & F' & Hd'). exists d'. split; [exact F'|].
      rewrite <- (final_cons n) by congruence.
      assert (N : c' <> c) by (intros ->; exact (T (desc_names _ _ _ _ _ _ _ _ Hd Hd'))).
      destruct (desc_odd _ _ _ _ _ Hd) as (p & Ep). destruct (desc_odd _ _ _ _ _ Hd') as (q & Eq).
      eapply described_same; [exact Hd'| |]; apply Ow; lia.
  - intros m A1 A2. rewrite Gl. destruct (text_eqb n m) eqn:T.
    + apply text_eqb_eq in T. subst m. congruence.
    + apply text_eqb_neq in T. apply P; [|exact A2]. rewrite but_cons by congruence. exact A1.
Qed.

Lemma D_block : forall fuel n k ex u i u', D (but (n :: ex)) u ->
  is_block n = true -> always n = false -> mem n ex = false ->
  (forall s, block_value n s = if text_eqb (value_selector k) s then Some k else None) ->
  make_block_class M sel is_prim known avoid path fuel 1 n k u = (Ok i, u') -> D (but ex) u'.
Proof.
  intros fuel n k ex u i u' Hu B A X V H.
  assert (I' : Inv u').
  { assert (K := keeps_make_block sel is_prim known avoid path fuel n k (fun _ => True) (fun _ _ _ _ => Logic.I)).
    destruct (K u (proj1 Hu) Logic.I) as (K1 & _). now rewrite H in K1. }
  unfold make_block_class in H. apply andthen_ok in H. destruct H as (r & u1 & H1 & H).
  destruct (load_file_spec sel is_prim known avoid path Hname _ _ n u (load_class_good sel is_prim known avoid path Hname _ fuel) Hu)
    as (D1 & W1 & S1).
  rewrite H1 in D1, W1, S1. cbn [fst snd] in D1, W1, S1.
  apply andthen_ok in H. destruct H as (j & u2 & H2 & H). destruct r as [j'|]; [|discriminate].
  cbn [the] in H2. unfold ret in H2. assert (j' = j /\ u2 = u1) as [-> ->] by (split; congruence).
  destruct (S1 j eq_refl) as (d & F & Hd & Lj).
  assert (Hd' := Hd). destruct Hd' as (fi & fc & kk & mk & [A1 A2 A3 A4 A5 A6 A7 A8 A9 A10 A11 A12 A13 A14 A15]).
  destruct (add_primitive_spec j (value_selector k) (BlockValue k) u1 kk A3) as (w & k' & Ew & Gw & Lw & Ow & Nw & Bw & Tw).
  apply andthen_ok in H. destruct H as ([] & u3 & H3 & H). assert (u3 = w) by congruence. subst u3.
  apply andthen_ok in H. destruct H as ([] & u4 & H4 & H). unfold ret in H.
  assert (u4 = u' /\ i = j) as [-> ->] by (split; congruence).
  assert (E' : u' = snd (set_glob M n (Some (GCls j)) w)) by now rewrite H4.
  assert (C : u_cls u' = u_cls w) by now rewrite E'.
  assert (Gl : forall m, glob u' m = if text_eqb n m then Some (GCls j) else glob u1 m).
  { intros m. rewrite E', glob_set. destruct (text_eqb n m); [reflexivity|]. unfold ClsModel.glob. now rewrite Gw. }
  destruct D1 as (I1 & G1 & P1). split; [exact I'|]. split.
  - intros m c H5. rewrite Gl in H5. destruct (text_eqb n m) eqn:T.
    + apply text_eqb_eq in T. subst m. assert (c = j) by congruence. subst c. exists d. split; [exact F|].
      unfold ClsDecl.final, but. rewrite X. cbn [negb].
      apply (described_same is_prim path w); [|now rewrite C|now rewrite C].
      destruct Bw as (B1&B2&B3&B4&B5&B6&B7).
      assert (Nb : forall b s, has_builtin known n b s = false).
      { intros b s. unfold has_builtin. now rewrite (Hknown n B). }
      exists fi, fc, k', mk. split; try assumption; try congruence.
      * rewrite Ow; [exact A4|]. now apply odd_pred.
      * intros Y. rewrite B4. now apply A11.
      * intros s. rewrite Tw, A14. unfold ClsSpec.expected. rewrite V. destruct (text_eqb (value_selector k) s); [reflexivity|].
        rewrite Nb, andb_false_r. reflexivity.
      * intros s. rewrite A15. unfold ClsSpec.expected. rewrite Nb, andb_false_r. reflexivity.
    + apply text_eqb_neq in T. destruct (G1 m c H5) as (d' & F' & Hd'). exists d'. split; [exact F'|].
      rewrite <- (final_cons n ex) by congruence.
      assert (N : c <> j) by (intros ->; exact (T (desc_names _ _ _ _ _ _ _ _ Hd Hd'))).
      destruct (desc_odd _ _ _ _ _ Hd) as (p & Ep). destruct (desc_odd _ _ _ _ _ Hd') as (q & Eq).
      apply (described_same is_prim path u1); [exact Hd'| |]; rewrite C; apply Ow; lia.
  - intros m Y1 Y2. rewrite Gl. destruct (text_eqb n m) eqn:T; [discriminate|].
    apply text_eqb_neq in T. apply P1; [|exact Y2]. rewrite but_cons by congruence. exact Y1.
Qed.

Lemma D_need : forall L fuel n u i u', D L u ->
  need_class M sel is_prim known avoid path fuel 1 n u = (Ok i, u') ->
  D L u' /\ only_grown u u' /\ glob u' n = Some (GCls i).
Proof.
  intros L fuel n u i u' Hu H. unfold need_class in H. apply andthen_ok in H. destruct H as (v & u1 & H1 & H).
  destruct (D_load _ _ _ _ _ _ Hu H1) as [D1 W1].
  destruct v as [[j|l j]|]; unfold ret, fail in H; try congruence.
  assert (j = i /\ u1 = u') as [-> ->] by (split; congruence).
  split; [exact D1|]. split; [exact W1|]. eapply load_class_found; eauto.
Qed.
Lemma D_weaken : forall L L' u, (forall n, special n = true -> L n = L' n) -> D L u -> D L' u.
Proof.
  intros L L' u E (I & G & P). split; [exact I|]. split.
  - intros n c H. destruct (G n c H) as (d & F & Hd). exists d. split; [exact F|].
    eapply described_ext; [|exact Hd]. intros b s. unfold ClsDecl.final.
    destruct (special n) eqn:S; [now rewrite (E n S)|].
    destruct (L n), (L' n); try reflexivity; rewrite ?(expected_plain _ _ _ _ _ _ _ S); reflexivity.
  - intros n A B. apply P; [|exact B]. now rewrite E.
Qed.

Lemma text_eqb_sym : forall a b, text_eqb a b = text_eqb b a.
Proof.
  intros a b. destruct (text_eqb b a) eqn:E.
  - apply text_eqb_eq in E. subst. apply text_eqb_refl.
  - apply text_eqb_neq in E. apply text_eqb_neq. congruence.
Qed.
Lemma value1 : forall s, block_value (str "Block1") s = if text_eqb (value_selector 1) s then Some 1 else None.
Proof.
  intros s. unfold block_value.
  change (text_eqb (str "Block1") (str "Block1")) with true.
  change (text_eqb (str "Block1") (str "Block2")) with false.
  change (text_eqb (str "Block1") (str "Block3")) with false. cbn [andb]. now rewrite text_eqb_sym.
Qed.
Lemma value2 : forall s, block_value (str "Block2") s = if text_eqb (value_selector 2) s then Some 2 else None.
Proof.
  intros s. unfold block_value.
  change (text_eqb (str "Block2") (str "Block1")) with false.
  change (text_eqb (str "Block2") (str "Block2")) with true.
  change (text_eqb (str "Block2") (str "Block3")) with false. cbn [andb]. now rewrite text_eqb_sym.
Qed.
Lemma value3 : forall s, block_value (str "Block3") s = if text_eqb (value_selector 3) s then Some 3 else None.
Proof.
  intros s. unfold block_value.
  change (text_eqb (str "Block3") (str "Block1")) with false.
  change (text_eqb (str "Block3") (str "Block2")) with false.
  change (text_eqb (str "Block3") (str "Block3")) with true. cbn [andb]. now rewrite text_eqb_sym.
Qed.

Lemma specials_ok : forall fuel u u',
  D (but [str "True"; str "False"; str "Block1"; str "Block2"; str "Block3"]) u ->
  glob u (str "Nil") = Some (GCls 5) ->
  specials M sel is_prim known avoid path fuel sys0 u = (Ok tt, u') -> D (but []) u'.
Proof.
  intros fuel u u' Hu Gn H. unfold specials in H. cbn [sys0 s_meta s_nil] in H.
  apply andthen_ok in H. destruct H as (b & u1 & H1 & H).
  destruct (D_load _ _ _ _ _ _ Hu H1) as [D1 W1].
  apply andthen_ok in H. destruct H as (t & u2 & H2 & H).
  destruct (D_need _ _ _ _ _ _ D1 H2) as (D2 & W2 & G2).
  apply andthen_ok in H. destruct H as ([] & u3 & H3 & H).
  destruct (D_prims (str "True") _ _ _ _ D2 G2 eq_refl eq_refl eq_refl H3) as (D3 & E3).
  apply andthen_ok in H. destruct H as (f & u4 & H4 & H).
  destruct (D_need _ _ _ _ _ _ D3 H4) as (D4 & W4 & G4).
  apply andthen_ok in H. destruct H as ([] & u5 & H5 & H).
  destruct (D_prims (str "False") _ _ _ _ D4 G4 eq_refl eq_refl eq_refl H5) as (D5 & E5).
  apply andthen_ok in H. destruct H as (y & u6 & H6 & H).
  destruct (D_need _ _ _ _ _ _ D5 H6) as (D6 & W6 & G6).
  assert (Up : forall n v, glob u2 n = Some v -> glob u6 n = Some v).
  { intros n v X. apply W6. unfold ClsModel.glob. rewrite E5. fold (glob u4 n). apply W4.
    unfold ClsModel.glob. rewrite E3. exact X. }
  assert (Gt := Up _ _ G2).
  assert (Gf : glob u6 (str "False") = Some (GCls f)).
  { apply W6. unfold ClsModel.glob. rewrite E5. exact G4. }
  assert (Gn6 : glob u6 (str "Nil") = Some (GCls 5)) by (apply Up, W2, W1, Gn).
  assert (Gb : forall v, b = Some v -> glob u6 (str "Block") = Some v).
  { intros v ->. apply Up, W2. eapply load_class_found; eauto. }
  apply andthen_ok in H. destruct H as ([] & u7 & H7 & H). destruct (D_obj _ (str "nil") _ _ _ _ D6 eq_refl H7) as (D7 & O7).
  apply andthen_ok in H. destruct H as ([] & u8 & H8 & H). destruct (D_obj _ (str "true") _ _ _ _ D7 eq_refl H8) as (D8 & O8).
  apply andthen_ok in H. destruct H as ([] & u9 & H9 & H). destruct (D_obj _ (str "false") _ _ _ _ D8 eq_refl H9) as (D9 & O9).
  apply andthen_ok in H. destruct H as ([] & v0 & K0 & H). destruct (D_obj _ (str "system") _ _ _ _ D9 eq_refl K0) as (D10 & O10).
  assert (Same : forall n, mem n [str "nil"; str "true"; str "false"; str "system"] = false -> glob v0 n = glob u6 n).
  { intros n X. apply mem_not in X. cbn [In] in X.
    rewrite O10, O9, O8, O7; [reflexivity|..]; intros ->; apply X; tauto. }
  apply andthen_ok in H. destruct H as ([] & v1 & K1 & H).
  rewrite set_again in K1 by (rewrite Same by reflexivity; exact G6). assert (v1 = v0) by congruence. subst v1.
  apply andthen_ok in H. destruct H as ([] & v1 & K2 & H).
  destruct b as [[bi|bl bi]|].
  2,3: exfalso; clear - H;
    apply andthen_ok in H; destruct H as (? & ? & _ & H); apply andthen_ok in H; destruct H as (? & ? & _ & H);
    apply andthen_ok in H; destruct H as (? & ? & _ & H); apply andthen_ok in H; destruct H as (? & ? & _ & H);
    apply andthen_ok in H; destruct H as (? & ? & _ & H); apply andthen_ok in H; destruct H as (? & ? & _ & H);
    unfold fail in H; congruence.
  rewrite set_again in K2 by (rewrite Same by reflexivity; apply Gb; reflexivity). assert (v1 = v0) by congruence. subst v1.
  apply andthen_ok in H. destruct H as ([] & v1 & K3 & H).
  rewrite set_again in K3 by (rewrite Same by reflexivity; exact Gn6). assert (v1 = v0) by congruence. subst v1.
  apply andthen_ok in H. destruct H as ([] & v1 & K4 & H).
  rewrite set_again in K4 by (rewrite Same by reflexivity; exact Gt). assert (v1 = v0) by congruence. subst v1.
  apply andthen_ok in H. destruct H as ([] & v1 & K5 & H).
  rewrite set_again in K5 by (rewrite Same by reflexivity; exact Gf). assert (v1 = v0) by congruence. subst v1.
  apply andthen_ok in H. destruct H as (b1 & w1 & B1 & H).
  apply andthen_ok in H. destruct H as (b2 & w2 & B2 & H).
  apply andthen_ok in H. destruct H as (b3 & w3 & B3 & H).
  unfold ret in H. assert (w3 = u') by congruence. subst w3.
  assert (F1 := D_block _ (str "Block1") _ _ _ _ _ D10 eq_refl eq_refl eq_refl value1 B1).
  assert (F2 := D_block _ (str "Block2") _ _ _ _ _ F1 eq_refl eq_refl eq_refl value2 B2).
  exact (D_block _ (str "Block3") _ _ _ _ _ F2 eq_refl eq_refl eq_refl value3 B3).
Qed.

Lemma start_ok : forall fuel s u,
  start M sel is_prim known avoid path fuel empty = (Ok s, u) -> D (but []) u.
Proof.
  intros fuel s u H. rewrite start_eq in H. unfold after_base in H.
  apply andthen_ok in H. destruct H as ([] & u1 & H1 & H).
  apply andthen_ok in H. destruct H as ([] & u2 & H2 & H). unfold ret in H.
  assert (u2 = u) by congruence. subst u2.
  destruct (load_all_ok sel is_prim known avoid path Hconf fuel u1 H1) as [SG SI SD ST].
  assert (All : forall n c, In (n, c) sysids -> In n (rev (map fst sysids))).
  { intros n c X. rewrite <- in_rev. apply in_map_iff. now exists (n, c). }
  assert (Ex : forallb (fun p => negb (mem (fst p) [str "True"; str "False"; str "Block1"; str "Block2"; str "Block3"])) sysids = true)
    by (vm_compute; reflexivity).
  rewrite forallb_forall in Ex.
  assert (Gb : forall n v, glob u1 n = Some v <-> glob (@base M) n = Some v).
  { intros n v. unfold ClsModel.glob. now rewrite SG. }
  apply (specials_ok fuel u1 u); [|apply Gb; apply in_glob_base; apply mem2_In; vm_compute; reflexivity|exact H2].
  split; [exact SI|]. split.
  - intros n c X. apply Gb, glob_base_in in X. destruct X as (c' & Ec & X). assert (c' = c) by congruence. subst c'.
    destruct (SD n c X (All n c X)) as (d & F & Hd). exists d. split; [exact F|].
    unfold ClsDecl.final, but. assert (Y := Ex _ X). cbn [fst] in Y. rewrite Y. exact Hd.
  - intros n A B. unfold special in B. apply orb_true_iff in B. destruct B as [B|B].
    + destruct (always_sys n B) as [(c & X)|X].
      * assert (Y := in_glob_base (M := M) _ _ X). apply Gb in Y. congruence.
      * exfalso. destruct X as [-> | ->]; vm_compute in A; discriminate.
    + exfalso. unfold is_block in B. apply orb_true_iff in B. destruct B as [B|B]; [apply orb_true_iff in B; destruct B as [B|B]|];
        apply text_eqb_eq in B; subst n; vm_compute in A; discriminate.
Qed.

(** The classes of named files, and of texts given to the shell, after any history. *)
Lemma run_ok : forall qs L fuel u, D L u -> D L (snd (run M sel is_prim known avoid path fuel 1 qs u)).
Proof.
  induction qs as [|q r IH]; intros L fuel u Hu; cbn [run snd]; [exact Hu|]. apply IH.
  destruct q as [n|f]; cbn [serve].
  - destruct (load_class fuel 1 n u) as [a u'] eqn:E. cbn [snd]. now apply (D_load _ _ _ _ _ _ Hu E).
  - destruct (compile_spec sel is_prim known path L _ f u (load_class_good sel is_prim known avoid path Hname L fuel) Hu) as (D1 & _).
    unfold load_shell. destruct (compile M sel is_prim 1 (load_class fuel 1) None f u) as [[i|e] u'] eqn:E; cbn [snd] in D1.
    + erewrite andthen_step by exact E. exact D1.
    + erewrite andthen_err by exact E. exact D1.
Qed.
Lemma shell_ok : forall L fuel f u i u', D L u -> serve M sel is_prim known avoid path fuel 1 (Shell M f) u = (Ok (Some (GCls i)), u') ->
  exists d, f = Good d /\ described u' (c_name M d) i d (bare d).
Proof.
  intros L fuel f u i u' Hu H. cbn [serve] in H.
  destruct (compile_spec sel is_prim known path L _ f u (load_class_good sel is_prim known avoid path Hname L fuel) Hu) as (D1 & W1 & S1).
  apply andthen_ok in H. destruct H as (j & u1 & E & H). unfold load_shell in E. rewrite E in S1. cbn [fst snd] in S1.
  unfold ret in H. assert (j = i /\ u1 = u') as [-> ->] by (split; congruence).
  destruct (S1 i eq_refl) as (d & A & B & _). now exists d.
Qed.
End Boot.
