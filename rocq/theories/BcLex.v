(** Names in inlined blocks denote what they denote in the source. *)
From Coq Require Import ZArith Bool String Ascii List Lia.
From Verif Require Import Base LexModel ParseModel BcModel BcInterp BcSpec BcTab BcCode BcSim BcEval BcNest.
Import ListNotations.
Open Scope nat_scope.
Open Scope list_scope.

Lemma acts_ne L : lex_ok L -> activations L <> [].
Proof.
  induction L as [|[own l] L IH]; cbn [lex_ok]; [contradiction|]. destruct L as [|p L].
  - intros ->. discriminate.
  - intros [_ H]. specialize (IH H). remember (p :: L) as L'. cbn [activations]. destruct own; [discriminate|].
    destruct (activations L'); congruence.
Qed.
Lemma in_level_merge n ls a args : in_level n (Level (ls ++ lv_layers a) args) =
  match in_layers n ls with Some d => Some (VLoc d) | None => in_level n (Level (lv_layers a) args) end.
Proof. unfold in_level. cbn [lv_layers lv_args]. rewrite in_layers_app. destruct (in_layers n ls); reflexivity. Qed.
Lemma lex_resolve n L : name_ok n = true -> lex_ok L ->
  resolve n (activations L) = option_map (fun p => (activation_of (fst p) L, snd p)) (resolve n (map snd L)).
Proof.
  intros Hn. induction L as [|[own l] L IH]; cbn [lex_ok]; [contradiction|]. intros H.
  assert (Hl : L = [] /\ own = true \/ (own = false -> lv_args l = [t_block_self]) /\ lex_ok L).
  { destruct L; auto. }
  clear H. destruct own.
  - cbn [activations map snd resolve]. destruct (in_level n l) eqn:El; [reflexivity|].
    destruct Hl as [[-> _] | [_ Hl]]; [reflexivity|]. rewrite IH by auto.
    destruct (resolve n (map snd L)) as [[k v]|]; reflexivity.
  - destruct Hl as [[_ Hl] | [Ha Hl]]; [discriminate|]. specialize (Ha eq_refl). specialize (IH Hl).
    cbn [activations map snd resolve]. pose proof (acts_ne L Hl) as Hne.
    destruct (activations L) as [|a r] eqn:Ea; [congruence|]. cbn [resolve] in *. rewrite in_level_merge.
    assert (El : in_level n l = option_map VLoc (in_layers n (lv_layers l))).
    { unfold in_level. rewrite Ha. cbn [position]. rewrite (name_ok_neq _ Hn). cbn. destruct (in_layers _ _); reflexivity. }
    rewrite El. destruct (in_layers n (lv_layers l)); cbn [option_map]; [reflexivity|].
    replace (Level (lv_layers a) (lv_args a)) with a by (destruct a; reflexivity). rewrite IH.
    destruct (resolve n (map snd L)) as [[k v]|]; reflexivity.
Qed.

Definition lex_inl (b : src) (L : lexenv) : list (src * lexenv) :=
  match b with SBlk _ _ ls ss ret _ => lex_body ss ret ((false, Level [ls] [t_block_self]) :: L) | _ => [] end.
Definition act_pair (p : src * lexenv) : src * env := (fst p, activations (snd p)).
Lemma lex_send sup r sel args L : lex_blocks (SSend sup r sel args) L =
  match special_form sup r sel args with
  | Some (KWhile _) => lex_inl r L ++ flat_map (fun a => lex_inl a L) args
  | Some _ => lex_blocks r L ++ flat_map (fun a => lex_inl a L) args
  | None => lex_blocks r L ++ flat_map (fun a => lex_blocks a L) args
  end.
Proof. reflexivity. Qed.
Lemma map_flat {A B C} (f : B -> C) (g : A -> list B) l : map f (flat_map g l) = flat_map (fun x => map f (g x)) l.
Proof. induction l; simpl; auto. rewrite map_app. congruence. Qed.
Lemma lex_ok_inl ls L : lex_ok L -> lex_ok ((false, Level [ls] [t_block_self]) :: L).
Proof. destruct L; [contradiction|]. intros H. split; auto. Qed.
Lemma lex_ok_own l L : lex_ok L -> lex_ok ((true, l) :: L).
Proof. destruct L; [contradiction|]. intros H. split; auto. discriminate. Qed.
Lemma acts_inl ls L : lex_ok L -> activations ((false, Level [ls] [t_block_self]) :: L) = add_layer ls (activations L).
Proof. intros H. cbn [activations]. destruct (activations L); reflexivity. Qed.
Lemma lex_all : forall e,
  (forall L, lex_ok L -> blocks e (activations L) = map act_pair (lex_blocks e L)) /\
  (forall L, lex_ok L -> blocks_inl e (activations L) = map act_pair (lex_inl e L)).
Proof.
  assert (Body : forall ss ret, Forall (fun e => forall L, lex_ok L -> blocks e (activations L) = map act_pair (lex_blocks e L)) ss ->
    (forall e, ret = Some e -> forall L, lex_ok L -> blocks e (activations L) = map act_pair (lex_blocks e L)) ->
    forall L, lex_ok L -> body_blocks ss ret (activations L) = map act_pair (lex_body ss ret L)).
  { intros ss ret Hs Hr L HL. unfold body_blocks, lex_body. rewrite map_app, map_flat. f_equal.
    - apply flat_map_ext_in'. eapply Forall_impl; [|exact Hs]. auto.
    - destruct ret; auto. }
  induction e as [n|l|sup r sel args IHr IHa|e IH|e IH|vs e IH|label ps ls ss ret per IHs IHr] using src_ind';
    (split; [intros L HL|intros L HL; try reflexivity]); try reflexivity; try (apply IH; auto; fail).
  - rewrite blocks_send, lex_send.
    assert (Ha1 : flat_map (fun a => blocks_inl a (activations L)) args = map act_pair (flat_map (fun a => lex_inl a L) args)).
    { rewrite map_flat. apply flat_map_ext_in'. eapply Forall_impl; [|exact IHa]. intros a [_ H]. auto. }
    assert (Ha2 : flat_map (fun a => blocks a (activations L)) args = map act_pair (flat_map (fun a => lex_blocks a L) args)).
    { rewrite map_flat. apply flat_map_ext_in'. eapply Forall_impl; [|exact IHa]. intros a [H _]. auto. }
    destruct IHr as [R1 R2].
    destruct (special_form sup r sel args) as [[]|]; rewrite map_app, ?Ha1, ?Ha2, ?R1, ?R2; auto.
  - change (blocks (SBlk label ps ls ss ret per) (activations L)) with
      ((SBlk label ps ls ss ret per, activations L) :: body_blocks ss ret (activations ((true, Level [ls] (t_block_self :: ps)) :: L))).
    change (lex_blocks (SBlk label ps ls ss ret per) L) with
      ((SBlk label ps ls ss ret per, L) :: lex_body ss ret ((true, Level [ls] (t_block_self :: ps)) :: L)).
    cbn [map]. f_equal. apply Body; auto using lex_ok_own.
    + eapply Forall_impl; [|exact IHs]. intros e [H _]. exact H.
    + intros e He; subst ret. apply IHr.
  - unfold blocks_inl, lex_inl. rewrite <- (acts_inl ls L HL). apply Body; auto using lex_ok_inl.
    + eapply Forall_impl; [|exact IHs]. intros e [H _]. exact H.
    + intros e He; subst ret. apply IHr.
Qed.
Lemma lex_body_blocks ss ret L : lex_ok L -> body_blocks ss ret (activations L) = map act_pair (lex_body ss ret L).
Proof.
  intros HL. unfold body_blocks, lex_body. rewrite map_app, map_flat. f_equal.
  - apply flat_map_ext. intros e. apply lex_all; auto.
  - destruct ret; auto. apply lex_all; auto.
Qed.
Lemma lex_ok_all : forall e,
  (forall L, lex_ok L -> Forall (fun p => lex_ok (snd p)) (lex_blocks e L)) /\
  (forall L, lex_ok L -> Forall (fun p => lex_ok (snd p)) (lex_inl e L)).
Proof.
  assert (FM : forall A (f : A -> list (src * lexenv)) l, Forall (fun a => Forall (fun p => lex_ok (snd p)) (f a)) l ->
    Forall (fun p => lex_ok (snd p)) (flat_map f l)).
  { intros A f l. induction 1; cbn [flat_map]; auto. apply Forall_app; auto. }
  assert (Body : forall ss ret, Forall (fun e => forall L, lex_ok L -> Forall (fun p => lex_ok (snd p)) (lex_blocks e L)) ss ->
    (forall e, ret = Some e -> forall L, lex_ok L -> Forall (fun p => lex_ok (snd p)) (lex_blocks e L)) ->
    forall L, lex_ok L -> Forall (fun p => lex_ok (snd p)) (lex_body ss ret L)).
  { intros ss ret Hs Hr L HL. unfold lex_body. apply Forall_app. split.
    - apply FM. eapply Forall_impl; [|exact Hs]. auto.
    - destruct ret; auto. }
  induction e as [n|l|sup r sel args IHr IHa|e IH|e IH|vs e IH|label ps ls ss ret per IHs IHr] using src_ind';
    (split; [intros L HL|intros L HL; try constructor]); try (constructor; fail); try (apply IH; auto; fail).
  - rewrite lex_send.
    assert (Ha1 : Forall (fun p => lex_ok (snd p)) (flat_map (fun a => lex_inl a L) args)).
    { apply FM. eapply Forall_impl; [|exact IHa]. intros a [_ H]. auto. }
    assert (Ha2 : Forall (fun p => lex_ok (snd p)) (flat_map (fun a => lex_blocks a L) args)).
    { apply FM. eapply Forall_impl; [|exact IHa]. intros a [H _]. auto. }
    destruct IHr as [R1 R2].
    destruct (special_form sup r sel args) as [[]|]; apply Forall_app; auto.
  - change (lex_blocks (SBlk label ps ls ss ret per) L) with
      ((SBlk label ps ls ss ret per, L) :: lex_body ss ret ((true, Level [ls] (t_block_self :: ps)) :: L)).
    constructor; auto. apply Body; auto using lex_ok_own.
    + eapply Forall_impl; [|exact IHs]. intros e [H _]. exact H.
    + intros e He; subst ret. apply IHr.
  - unfold lex_inl. apply Body; auto using lex_ok_inl.
    + eapply Forall_impl; [|exact IHs]. intros e [H _]. exact H.
    + intros e He; subst ret. apply IHr.
Qed.
Lemma lex_body_ok ss ret L : lex_ok L -> Forall (fun p => lex_ok (snd p)) (lex_body ss ret L).
Proof.
  intros HL. unfold lex_body. apply Forall_app. split.
  - induction ss; cbn [flat_map]; auto. apply Forall_app. split; auto. apply lex_ok_all; auto.
  - destruct ret; auto. apply lex_ok_all; auto.
Qed.
