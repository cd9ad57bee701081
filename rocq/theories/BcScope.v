(** Scopes of generation contexts as contexts of structured code, and the emission of
    single bytecodes. *)
From Coq Require Import ZArith Bool String Ascii List Lia.
From Verif Require Import Base LexModel ParseModel BcModel BcInterp BcSpec BcCode BcEval BcMono BcAdapt.
Import ListNotations.
Open Scope nat_scope.
Open Scope list_scope.

Lemma nth_app_some {A} (l q : list A) i d : nth_error l i = Some d -> nth_error (l ++ q) i = Some d.
Proof. revert i. induction l; intros [|i]; simpl; try discriminate; auto. Qed.

(** * Scopes *)
Definition cx_of (scs : list scope) : cx := map (fun sc => (map snd (sc_locals sc), sc_args sc)) scs.
(** What the contexts around know to be touched from inside: the contexts in between know
    that they need the one around them. *)
Definition A_of (scs : list scope) : allow := fun k a =>
  (forall j sc, j < k -> nth_error scs j = Some sc -> requires_context sc = true) /\
  exists sc, nth_error scs k = Some sc /\
    match a with
    | AVar v => In v (sc_out sc)
    | AFld => S k = length scs
    | ANlr => S k = length scs /\ sc_catch sc = true
    end.
Definition is_qual (l : local) : Prop := exists n s, fst l = Qual n s.
Definition sc_le (a b : scope) : Prop :=
  sc_args b = sc_args a /\ (exists qs, sc_locals b = sc_locals a ++ qs /\ Forall is_qual qs) /\
  (sc_acc a = true -> sc_acc b = true) /\ (sc_thr a = true -> sc_thr b = true) /\
  (sc_catch a = true -> sc_catch b = true) /\ incl (sc_out a) (sc_out b).
Definition scs_le : list scope -> list scope -> Prop := Forall2 sc_le.
Lemma sc_le_refl a : sc_le a a.
Proof. repeat split; auto using incl_refl. exists []. rewrite app_nil_r; auto. Qed.
Lemma sc_le_trans a b c : sc_le a b -> sc_le b c -> sc_le a c.
Proof.
  intros (A1 & (q1 & A2 & A2') & A3 & A4 & A5 & A6) (B1 & (q2 & B2 & B2') & B3 & B4 & B5 & B6).
  repeat split; eauto using incl_tran; [congruence|].
  exists (q1 ++ q2). rewrite B2, A2, app_assoc. split; auto. apply Forall_app; auto.
Qed.
Lemma scs_le_refl l : scs_le l l.
Proof. induction l; constructor; auto using sc_le_refl. Qed.
Lemma scs_le_trans a b c : scs_le a b -> scs_le b c -> scs_le a c.
Proof.
  intros H. revert c. induction H; intros c Hc; inversion Hc; subst; constructor; eauto using sc_le_trans.
  apply IHForall2; auto.
Qed.
Lemma scs_le_length a b : scs_le a b -> length b = length a.
Proof. induction 1; simpl; congruence. Qed.
Lemma scs_le_nth a b k x : scs_le a b -> nth_error a k = Some x -> exists y, nth_error b k = Some y /\ sc_le x y.
Proof. intros H. revert k. induction H; intros [|k] E; simpl in *; try discriminate; [inversion E; subst; eauto|eauto]. Qed.
Lemma scs_le_nth' a b k y : scs_le a b -> nth_error b k = Some y -> exists x, nth_error a k = Some x /\ sc_le x y.
Proof. intros H. revert k. induction H; intros [|k] E; simpl in *; try discriminate; [inversion E; subst; eauto|eauto]. Qed.
Lemma requires_le a b : sc_le a b -> requires_context a = true -> requires_context b = true.
Proof.
  intros (_ & _ & H1 & H2 & _) H. unfold requires_context in *. apply orb_true_iff in H.
  apply orb_true_iff. destruct H; auto.
Qed.
Lemma A_of_le a b : scs_le a b -> allow_le (A_of a) (A_of b).
Proof.
  intros H k x [H1 (sc & H2 & H3)]. destruct (scs_le_nth _ _ _ _ H H2) as (sc' & E & Hs). split.
  - intros j y Hj Ey. destruct (scs_le_nth' _ _ _ _ H Ey) as (z & Ez & Hz). eapply requires_le; eauto.
  - exists sc'. split; auto. rewrite (scs_le_length _ _ H).
    destruct Hs as (_ & _ & _ & _ & Hc & Ho). destruct x; auto. destruct H3; auto.
Qed.
Lemma cx_of_nth scs k : nth_error (cx_of scs) k =
  option_map (fun sc => (map snd (sc_locals sc), sc_args sc)) (nth_error scs k).
Proof. apply nth_error_map. Qed.
Lemma cx_of_le a b : scs_le a b -> cx_le (cx_of a) (cx_of b).
Proof.
  intros H. split.
  - unfold cx_of. rewrite !map_map. simpl. induction H; simpl; auto. f_equal; auto. symmetry. apply H.
  - intros k i d. unfold cslot, slot. rewrite !nth_error_map, !cx_of_nth.
    destruct (nth_error a k) as [x|] eqn:E; [|discriminate].
    destruct (scs_le_nth _ _ _ _ H E) as (y & -> & (_ & (qs & Hq & _) & _)). simpl.
    rewrite Hq, map_app. apply nth_app_some.
Qed.
Lemma cx_of_length scs : length (cx_of scs) = length scs.
Proof. apply map_length. Qed.
Lemma rooted_A scs : rooted (A_of scs) (cx_of scs).
Proof.
  intros k a [_ (sc & _ & H)] Ha. rewrite cx_of_length. destruct Ha as [-> | ->]; auto. apply H.
Qed.

(** Parameters of blocks that are touched from inside are not the block itself. *)
Fixpoint outs_ok (scs : list scope) : Prop :=
  match scs with
  | [] => True
  | sc :: outer =>
      (outer <> [] -> forall i, In (VArg i) (sc_out sc) -> 0 < i < length (sc_args sc)) /\ outs_ok outer
  end.
(** Scopes and the environment of the source. *)
Definition sc_env (sc : scope) (l : level) : Prop :=
  lv_args l = sc_args sc /\
  exists ls qs, lv_layers l = [ls] /\ sc_locals sc = plain_locals ls ++ qs /\ Forall is_qual qs.
Definition env_ok : list scope -> env -> Prop := Forall2 sc_env.
Lemma env_ok_args scs rho : env_ok scs rho -> map lv_args rho = map snd (cx_of scs).
Proof.
  intros H. unfold cx_of. rewrite map_map. simpl. induction H as [|sc l scs rho [H1 _] _ IH]; simpl; auto. congruence.
Qed.
Lemma env_ok_length scs rho : env_ok scs rho -> length rho = length scs.
Proof. induction 1; simpl; congruence. Qed.
Lemma env_ok_le a b rho : env_ok a rho -> scs_le a b -> env_ok b rho.
Proof.
  intros H. revert b. induction H as [|sc l scs rho [H1 (ls & qs & H2 & H3 & H4)] _ IH]; intros b Hb; inversion Hb; subst; constructor; auto.
  destruct H5 as (E1 & (q2 & E2 & E2') & _). split; [congruence|].
  exists ls, (qs ++ q2). rewrite E2, H3, app_assoc. repeat split; auto. apply Forall_app; auto.
  apply IH; auto.
Qed.

(** The operations on scopes only add. *)
Lemma set_acc_le s : sc_le s (set_acc s).
Proof. repeat split; simpl; auto using incl_refl. exists []. rewrite app_nil_r; auto. Qed.
Lemma set_thr_le s : sc_le s (set_thr s).
Proof. repeat split; simpl; auto using incl_refl. exists []. rewrite app_nil_r; auto. Qed.
Lemma set_catch_le s : sc_le s (set_catch s).
Proof. repeat split; simpl; auto using incl_refl. exists []. rewrite app_nil_r; auto. Qed.
Lemma add_out_le v s : sc_le s (add_out v s).
Proof. repeat split; simpl; auto using incl_tl, incl_refl. exists []. rewrite app_nil_r; auto. Qed.
Lemma mark_self_le scs : scs_le scs (mark_self scs).
Proof. induction scs; simpl; constructor; auto using set_acc_le. Qed.
Lemma outs_ok_mark_self scs : outs_ok scs -> outs_ok (mark_self scs).
Proof.
  induction scs as [|sc scs IH]; simpl; auto. intros [H1 H2]. split; auto.
  intros Hn. apply H1. intros ->. apply Hn. reflexivity.
Qed.
Lemma mark_locals_le marks scs : scs_le scs (mark_locals marks scs).
Proof.
  destruct scs as [|sc scs]; simpl; constructor; [|apply scs_le_refl].
  induction marks; simpl; auto using sc_le_refl. eapply sc_le_trans; eauto using add_out_le.
Qed.
Lemma mark_locals_in marks sc scs d : In d marks ->
  exists sc', mark_locals marks (sc :: scs) = sc' :: scs /\ In (VLoc d) (sc_out sc').
Proof.
  intros H. eexists. split; [reflexivity|]. induction marks as [|m marks IH]; [contradiction|].
  simpl. destruct H as [->|H]; [left; auto|right; auto].
Qed.
Lemma outs_ok_mark_locals marks scs : outs_ok scs -> outs_ok (mark_locals marks scs).
Proof.
  destruct scs as [|sc scs]; simpl; auto. intros [H1 H2]. split; auto. intros Hn i Hi.
  specialize (H1 Hn). induction marks as [|m marks IH]; simpl in *; auto. destruct Hi as [Hi|Hi]; [discriminate|auto].
Qed.
Lemma requires_mark_self scs j sc : nth_error (mark_self scs) j = Some sc -> requires_context sc = true.
Proof.
  unfold mark_self. rewrite nth_error_map. destruct (nth_error scs j); [|discriminate].
  intros H. inversion H. unfold requires_context. simpl. apply orb_true_r.
Qed.
Lemma mark_self_fld scs : scs <> [] -> A_of (mark_self scs) (max_ctx scs) AFld.
Proof.
  intros H. split.
  - intros j sc _. apply requires_mark_self.
  - unfold max_ctx, mark_self. rewrite map_length.
    destruct (nth_error (map set_acc scs) (length scs - 1)) eqn:E.
    + eexists. split; eauto. destruct scs; [congruence|simpl; lia].
    + apply nth_error_None in E. rewrite map_length in E. destruct scs; [congruence|simpl in E; lia].
Qed.

(** find_var and mark_accessed agree with the resolution of names *)
Lemma find_local_quals n qs : Forall is_qual qs -> find_local n qs = None.
Proof.
  induction 1 as [|l qs (m & s & E) _ IH]; simpl; auto. unfold plain_is. rewrite E, IH. reflexivity.
Qed.
Lemma find_local_plain n ls qs : Forall is_qual qs ->
  match find_local n (plain_locals ls ++ qs) with
  | Some (i, d) => in_layer n ls = Some d /\ nth_error (map snd (plain_locals ls ++ qs)) i = Some d
  | None => in_layer n ls = None
  end.
Proof.
  intros Hq. induction ls as [|[m d] ls IH]; simpl.
  - rewrite find_local_quals; auto.
  - unfold plain_is. simpl. destruct (text_eqb n m); [auto|].
    destruct (find_local n _) as [[i e]|]; simpl; auto.
Qed.
Lemma find_text_position n l : find_text n l = position n l.
Proof. reflexivity. Qed.
Lemma position_lt n l i : position n l = Some i -> i < length l.
Proof.
  revert i. induction l as [|x l IH]; simpl; intros i; [discriminate|].
  destruct (text_eqb n x); [intros H; inversion H; lia|].
  destruct (position n l) eqn:E; [|discriminate]. simpl. intros H. inversion H; subst. specialize (IH _ eq_refl). lia.
Qed.
Lemma find_var_spec n scs rho : env_ok scs rho -> forall r scs', find_var n scs = (r, scs') ->
  resolve n rho = option_map (fun p => (fst p, ref_of (snd p))) r /\ scs_le scs scs' /\
  (outs_ok scs -> outs_ok scs') /\
  match r with
  | Some (k, f) =>
      (forall j sc, j < k -> nth_error scs' j = Some sc -> requires_context sc = true) /\
      exists sc, nth_error scs' k = Some sc /\
        match f with
        | FLoc i d => cslot (cx_of scs') k i = Some d
        | FArg i => position n (sc_args sc) = Some i
        end
  | None => True
  end.
Proof.
  intros H. induction H as [|sc l scs rho [H1 (ls & qs & H2 & H3 & H4)] Hr IH]; intros r scs' E; simpl in E.
  - inversion E; subst. simpl. repeat split; auto. constructor.
  - simpl. unfold in_level. rewrite H1, H2. simpl. pose proof (find_local_plain n ls qs H4) as P.
    rewrite <- H3 in P. destruct (find_local n (sc_locals sc)) as [[i d]|] eqn:El.
    + destruct P as [-> P]. inversion E; subst. split; [reflexivity|]. split; [apply scs_le_refl|].
      split; [auto|]. split; [intros; lia|]. exists sc. split; auto.
    + rewrite P. rewrite find_text_position in E. destruct (position n (sc_args sc)) as [i|] eqn:Ep.
      * inversion E; subst. split; [reflexivity|]. split; [apply scs_le_refl|].
        split; [auto|]. split; [intros; lia|]. exists sc. split; auto.
      * simpl. destruct (find_var n scs) as [r0 outer'] eqn:Ef. destruct (IH _ _ eq_refl) as (E1 & E2 & E3 & E4).
        destruct r0 as [[c f]|]; inversion E; subst.
        -- simpl in *. rewrite E1. simpl. split; auto. split; [constructor; auto using set_acc_le|].
           split.
           { intros [O1 O2]. split; auto. intros Hn. apply O1. intros ->. apply Hn. inversion E2. auto. }
           destruct E4 as [E4 (sc' & E5 & E6)]. split.
           ++ intros [|j] s Hj Es; simpl in Es; [inversion Es; unfold requires_context; simpl; apply orb_true_r|].
              apply (E4 j); auto. lia.
           ++ exists sc'. split; auto.
        -- simpl in *. rewrite E1. split; auto. split; [constructor; auto using sc_le_refl|].
           split; auto. intros [O1 O2]. split; auto. intros Hn. apply O1. intros ->. apply Hn. inversion E2. auto.
Qed.
Lemma update_nth_le k f scs : (forall s, sc_le s (f s)) -> scs_le scs (update_nth k f scs).
Proof.
  intros Hf. revert scs. induction k as [|k IH]; intros [|sc scs]; simpl; constructor; auto using sc_le_refl.
  - apply scs_le_refl.
  - apply IH.
Qed.
Lemma update_nth_nth {A} k (f : A -> A) l x : nth_error l k = Some x -> nth_error (update_nth k f l) k = Some (f x).
Proof. revert l. induction k as [|k IH]; intros [|y l]; simpl; try discriminate; auto. intros H; inversion H; auto. Qed.
Lemma update_nth_other {A} k j (f : A -> A) l : j <> k -> nth_error (update_nth k f l) j = nth_error l j.
Proof. revert j l. induction k as [|k IH]; intros [|j] [|y l] H; simpl; auto; try congruence. Qed.
Lemma mark_accessed_le k v scs : scs_le scs (mark_accessed k v scs).
Proof. destruct k; simpl; auto using scs_le_refl. apply (update_nth_le (S k)). intros; apply add_out_le. Qed.
Lemma outs_update k v scs : outs_ok scs ->
  (forall sc, nth_error scs k = Some sc -> S k < length scs -> forall i, v = VArg i -> 0 < i < length (sc_args sc)) ->
  outs_ok (update_nth k (add_out v) scs).
Proof.
  revert scs. induction k as [|k IH]; intros [|sc scs]; simpl; auto.
  - intros [H1 H2] Hv. split; auto. intros Hn i [Hi | Hi]; [|auto].
    apply (Hv sc); auto. destruct scs; [congruence|simpl; lia].
  - intros [H1 H2] Hv. split; auto.
    + intros Hn. apply H1. intros ->. destruct k; apply Hn; reflexivity.
    + apply IH; auto. intros s Es Hl. apply Hv; auto. lia.
Qed.
(** Non-root scopes have the block itself as their first parameter. *)
Fixpoint blocks_ok (scs : list scope) : Prop :=
  match scs with
  | [] => True
  | sc :: outer => (outer <> [] -> exists ps, sc_args sc = t_block_self :: ps) /\ blocks_ok outer
  end.
Lemma blocks_ok_le a b : scs_le a b -> blocks_ok a -> blocks_ok b.
Proof.
  induction 1 as [|x y a b Hs Hl IH]; simpl; auto. intros [H1 H2]. split; auto.
  intros Hn. destruct Hs as (-> & _). apply H1. intros ->. apply Hn. inversion Hl. auto.
Qed.
Lemma blocks_ok_nth scs k sc : blocks_ok scs -> nth_error scs k = Some sc -> S k < length scs ->
  exists ps, sc_args sc = t_block_self :: ps.
Proof.
  revert scs. induction k as [|k IH]; intros [|x scs]; simpl; try discriminate; intros [H1 H2] E Hl.
  - inversion E; subst. apply H1. destruct scs; [simpl in Hl; lia|congruence].
  - apply (IH scs); auto. lia.
Qed.
(** What reading or writing a variable that is found does. *)
Lemma found_ok n scs rho k f scs' : env_ok scs rho -> name_ok n = true -> outs_ok scs -> blocks_ok scs ->
  find_var n scs = (Some (k, f), scs') ->
  let scs2 := mark_accessed k (ref_of f) scs' in
  resolve n rho = Some (k, ref_of f) /\ scs_le scs scs2 /\ outs_ok scs2 /\
  (k <> 0 -> A_of scs2 k (AVar (ref_of f))) /\
  match f with FLoc i d => cslot (cx_of scs2) k i = Some d | FArg _ => True end.
Proof.
  intros He Hn Ho Hb Hf scs2. destruct (find_var_spec _ _ _ He _ _ Hf) as (E1 & E2 & E3 & E4 & sc & E5 & E6).
  assert (L2 : scs_le scs' scs2) by apply mark_accessed_le.
  assert (L : scs_le scs scs2) by (eapply scs_le_trans; eauto).
  split; [rewrite E1; reflexivity|]. split; auto. split; [|split].
  - unfold scs2. destruct k as [|k]; simpl; auto. apply (outs_update (S k)); auto.
    intros sc' Es Hl i Hi. assert (sc' = sc) by congruence. subst sc'.
    destruct f as [|j]; simpl in Hi; [discriminate|]. inversion Hi; subst j.
    destruct (blocks_ok_nth scs' (S k) sc) as (ps & Ea); auto.
    { eapply blocks_ok_le; eauto. }
    split; [|eapply position_lt; eauto]. rewrite Ea in E6. simpl in E6. rewrite (name_ok_neq _ Hn) in E6.
    destruct (position n ps); inversion E6. lia.
  - intros Hk. unfold scs2. destruct k as [|k]; [congruence|]. split.
    + intros j s Hj Es. unfold mark_accessed in Es. rewrite update_nth_other in Es by lia. eauto.
    + exists (add_out (ref_of f) sc). split; [apply update_nth_nth; auto|]. left; auto.
  - destruct f; auto. apply (proj2 (cx_of_le _ _ L2)). auto.
Qed.
Lemma not_found n scs rho scs' : env_ok scs rho -> outs_ok scs -> find_var n scs = (None, scs') ->
  resolve n rho = None /\ scs_le scs scs' /\ outs_ok scs'.
Proof. intros He Ho Hf. destruct (find_var_spec _ _ _ He _ _ Hf) as (E1 & E2 & E3 & _). auto. Qed.

(** Non-local returns. *)
Lemma mark_nlr_le scs : scs_le scs (mark_nlr_outer scs).
Proof.
  induction scs as [|s scs IH]; simpl; [constructor|]. destruct scs as [|s2 scs].
  - repeat constructor; apply set_catch_le.
  - constructor; auto using set_thr_le.
Qed.
Lemma outs_nlr scs : outs_ok scs -> outs_ok (mark_nlr_outer scs).
Proof.
  induction scs as [|s scs IH]; simpl; auto. intros [H1 H2]. destruct scs as [|s2 scs]; simpl in *.
  - split; auto. 
  - split; [|apply IH; auto]. intros _. apply H1. congruence.
Qed.
Lemma nlr_spec scs : scs <> [] ->
  (forall j sc, S j < length scs -> nth_error (mark_nlr_outer scs) j = Some sc -> requires_context sc = true) /\
  exists sc, nth_error (mark_nlr_outer scs) (length scs - 1) = Some sc /\ sc_catch sc = true.
Proof.
  induction scs as [|s scs IH]; intros Hn; [congruence|]. destruct scs as [|s2 scs].
  - simpl. split; [intros; lia|]. eauto.
  - destruct IH as [IH1 (sc & IH2 & IH3)]; [congruence|]. simpl mark_nlr_outer. split.
    + intros [|j] x Hj E; simpl in E; [inversion E; reflexivity|]. apply (IH1 j); auto. simpl in *. lia.
    + exists sc. split; auto. simpl length in *. replace (S (S (length scs)) - 1) with (S (S (length scs) - 1)) by lia. auto.
Qed.
Lemma make_catch_spec scs scs' : make_catch scs = Ok scs' -> outs_ok scs ->
  scs_le scs scs' /\ outs_ok scs' /\ 2 <= length scs /\ A_of scs' (max_ctx scs) ANlr.
Proof.
  unfold make_catch. destruct scs as [|s [|s2 r]]; try discriminate. intros E Ho.
  assert (Es : scs' = set_thr s :: mark_nlr_outer (s2 :: r)) by (inversion E; auto). subst scs'. clear E.
  assert (L : scs_le (s :: s2 :: r) (set_thr s :: mark_nlr_outer (s2 :: r))).
  { constructor; auto using set_thr_le. apply mark_nlr_le. }
  split; auto. split; [|split; [simpl; lia|]].
  - destruct Ho as [O1 O2]. split; [|apply outs_nlr; auto]. intros _. apply O1. congruence.
  - destruct (nlr_spec (s2 :: r)) as [N1 (sc & N2 & N3)]; [congruence|]. split.
    + intros [|j] x Hj Ex; [inversion Ex; reflexivity|]. apply (N1 j); auto.
    + exists sc. rewrite (scs_le_length _ _ L). unfold max_ctx.
      replace (length (s :: s2 :: r) - 1) with (S (length (s2 :: r) - 1)) by (simpl; lia).
      split; auto. split; auto. simpl; lia.
Qed.
