(** The compiler of the AST interpreter makes the node of the expression. *)
From Coq Require Import ZArith Bool String Ascii List Lia.
From Verif Require Import Base LexModel ParseModel BcModel BcInterp BcSpec BcCode BcEval BcMono BcAdapt BcScope BcInl
  VmModel VmSpec BcCatch AstModel AstSpec AstNode AstMerge.
Import ListNotations.
Open Scope nat_scope.
Open Scope list_scope.

(** Does the context need the one around it? *)
Definition flag (i : nat) (scs : list scope) : bool :=
  match nth_error scs i with Some sc => requires_context sc | None => false end.
Lemma find_none n scs scs' : find_var n scs = (None, scs') -> scs' = scs.
Proof.
  revert scs'. induction scs as [|sc scs IH]; intros scs' H; cbn [find_var] in H; [inversion H; auto|].
  destruct (find_local n (sc_locals sc)) as [[? ?]|]; [discriminate|].
  destruct (find_text n (sc_args sc)); [discriminate|]. destruct (find_var n scs) as [[[? ?]|] ?]; [discriminate|].
  inversion H. f_equal. apply IH. auto.
Qed.
Lemma find_flag n scs k f scs' : find_var n scs = (Some (k, f), scs') -> forall i, flag i scs' = flag i scs || (i <? k).
Proof.
  revert k scs'. induction scs as [|sc scs IH]; intros k scs' H i; cbn [find_var] in H; [discriminate|].
  destruct (find_local n (sc_locals sc)) as [[? ?]|]; [injection H as <- <- <-; rewrite orb_false_r; auto|].
  destruct (find_text n (sc_args sc)); [injection H as <- <- <-; rewrite orb_false_r; auto|].
  destruct (find_var n scs) as [[[c g]|] o]; [|discriminate]. injection H as <- <- <-. specialize (IH _ _ eq_refl).
  destruct i as [|i]; [|exact (IH i)]. unfold flag. cbn. unfold requires_context. cbn. rewrite !orb_true_r. reflexivity.
Qed.
Lemma flag_accessed k v scs i : flag i (mark_accessed k v scs) = flag i scs.
Proof.
  unfold mark_accessed. destruct k as [|k]; auto. unfold flag.
  destruct (Nat.eq_dec i (S k)) as [->|Hn]; [|rewrite update_nth_other; auto].
  destruct (nth_error scs (S k)) as [x|] eqn:E; [rewrite (update_nth_nth _ _ _ _ E); reflexivity|].
  apply nth_error_None in E. destruct (nth_error (update_nth (S k) (add_out v) scs) (S k)) eqn:E2; auto.
  assert (nth_error (update_nth (S k) (add_out v) scs) (S k) <> None) by congruence. apply nth_error_Some in H.
  rewrite (scs_le_length _ _ (update_nth_le (S k) (add_out v) scs (add_out_le v))) in H. lia.
Qed.
Lemma flag_self scs i : i < length scs -> flag i (mark_self scs) = true.
Proof.
  intros H. unfold flag. destruct (nth_error (mark_self scs) i) eqn:E; [eapply requires_mark_self; eauto|].
  apply nth_error_None in E. unfold mark_self in E. rewrite map_length in E. lia.
Qed.
Lemma flag_nlr scs : forall i, S i < length scs -> flag i (mark_nlr_outer scs) = true.
Proof.
  induction scs as [|s [|s2 scs] IH]; intros i H; cbn [length] in H; try lia.
  destruct i as [|i]; [reflexivity|]. apply (IH i). cbn [length]. lia.
Qed.
Lemma flag_catch scs scs' i : make_catch scs = Ok scs' -> S i < length scs -> flag i scs' = true.
Proof.
  unfold make_catch. destruct scs as [|s [|s2 r]]; try discriminate. intros E H.
  assert (Es : scs' = set_thr s :: mark_nlr_outer (s2 :: r)) by (inversion E; auto). subst scs'.
  destruct i as [|i]; [reflexivity|]. apply (flag_nlr (s2 :: r) i). cbn [length] in *. lia.
Qed.
Lemma flag_locals l scs i : flag i (mark_locals l scs) = flag i scs.
Proof.
  destruct scs as [|s scs]; auto. destruct i as [|i]; auto. unfold flag. cbn. unfold requires_context.
  induction l; cbn; auto.
Qed.
Lemma le_cm a b : scs_le a b -> cm a b.
Proof. induction 1 as [|x y a b H _ IH]; constructor; auto. apply H. Qed.
Lemma in_place_0 scs rho : env_ok scs rho -> in_place rho = 0.
Proof.
  intros H. unfold in_place. inversion H as [|sc l scs' rho' _ H2]; subst; auto. cbn [tl]. clear H.
  induction H2 as [|sc2 l2 s r (_ & ls & qs & E & _) _ IH]; auto. cbn [map list_sum fold_right]. rewrite E. cbn [length]. exact IH.
Qed.
Lemma env_single scs rho : env_ok scs rho -> rho <> [] -> forall ps ls, single_at 0 (add_level ps ls rho).
Proof.
  intros H Hn ps ls. inversion H as [|sc l scs' rho' (_ & x & qs & E & _) H2]; subst; [congruence|].
  exists (Level [ls] (t_block_self :: ps)), l, x. repeat split; auto. discriminate.
Qed.
Lemma is_block_bare nd : is_block_node (bare nd) = is_block_node nd.
Proof. destruct nd; reflexivity. Qed.
Lemma access_bare i e : accesses_field i (bare e) = accesses_field i e.
Proof. destruct e; try reflexivity. destruct e; reflexivity. Qed.
Lemma blk_is label b c na : is_block_node (blk_node c label b na) = true.
Proof. destruct b; reflexivity. Qed.
Lemma reach_seq i l : reach i (seq_node l) = existsb (reach i) l.
Proof. destruct l as [|x [|y l]]; cbn [seq_node reach existsb]; rewrite ?orb_false_r; reflexivity. Qed.
Lemma reach_blk i c label b na : reach i (blk_node c label b na) = reach (S i) b.
Proof. destruct b; reflexivity. Qed.

Section Gen.
Variable ce : cenv.
Lemma node_block e rho : ok_src e = true -> is_block_node (node_of ce e rho) = is_block e.
Proof.
  intros Hok. destruct e as [x|l|sup e0 sel args|e0|e0|vs e0|label ps ls ss ret per].
  - cbn [node_of is_block]. unfold rd_node. destruct (resolve x rho) as [[? ?]|]; [destruct (text_eqb x t_self); reflexivity|].
    destruct (position x _); [reflexivity|].
    destruct (text_eqb x t_nil); [reflexivity|]. destruct (text_eqb x t_true); [reflexivity|].
    destruct (text_eqb x t_false); [reflexivity|]. destruct (ce_known ce x); reflexivity.
  - destruct l; cbn [node_of]; [destruct (lit_value l)|]; reflexivity.
  - rewrite node_send. destruct (special_form _ _ _ _) as [[k|k|b|b]|]; cbn [is_block].
    + unfold node_special. destruct args as [|a [|]]; try reflexivity. destruct k; reflexivity.
    + unfold node_special. destruct args as [|a [|a2 [|]]]; try reflexivity. destruct k; reflexivity.
    + unfold node_special. destruct args as [|a [|]]; reflexivity.
    + unfold node_special. destruct args as [|a [|]]; try reflexivity. destruct b; reflexivity.
    + unfold node_message. destruct (adds_one _ _ _); [reflexivity|]. destruct sup; reflexivity.
  - reflexivity.
  - reflexivity.
  - cbn [node_of is_block]. destruct vs as [|v vs]; [discriminate|]. cbn [wr_nodes fold_right]. unfold wr_node at 1.
    destruct (resolve v rho) as [[? ?]|]; [reflexivity|].
    destruct (position v _); [match goal with |- context [accesses_field ?a ?b] => destruct (accesses_field a b) end|]; reflexivity.
  - cbn [node_of is_block]. apply blk_is.
Qed.
Lemma node_fldw_level x rho j i y : ok_src x = true -> node_of ce x rho = NFldW j i y -> j = depth rho.
Proof.
  intros Hok. destruct x as [x|l|sup e0 sel args|e0|e0|vs e0|label ps ls ss ret per].
  - cbn [node_of]. unfold rd_node. destruct (resolve x rho) as [[? ?]|]; [destruct (text_eqb x t_self); discriminate|].
    destruct (position x _); [discriminate|].
    destruct (text_eqb x t_nil); [discriminate|]. destruct (text_eqb x t_true); [discriminate|].
    destruct (text_eqb x t_false); [discriminate|]. destruct (ce_known ce x); discriminate.
  - destruct l; cbn [node_of]; [destruct (lit_value l)|]; discriminate.
  - rewrite node_send. destruct (special_form _ _ _ _) as [[k|k|b|b]|].
    + unfold node_special. destruct args as [|a [|]]; try discriminate. destruct k; discriminate.
    + unfold node_special. destruct args as [|a [|a2 [|]]]; try discriminate. destruct k; discriminate.
    + unfold node_special. destruct args as [|a [|]]; discriminate.
    + unfold node_special. destruct args as [|a [|]]; try discriminate. destruct b; discriminate.
    + unfold node_message. destruct (adds_one _ _ _); [discriminate|]. destruct sup; discriminate.
  - discriminate.
  - discriminate.
  - cbn [node_of]. destruct vs as [|v vs]; [discriminate|]. cbn [wr_nodes fold_right]. unfold wr_node at 1.
    destruct (resolve v rho) as [[? ?]|]; [discriminate|].
    destruct (position v _); [match goal with |- context [accesses_field ?a ?b] => destruct (accesses_field a b) end|]; congruence.
  - cbn [node_of]. unfold blk_node. match goal with |- match ?x with _ => _ end = _ -> _ => destruct x end; discriminate.
Qed.

Lemma node_seq e rho x y : ok_src e = true -> node_of ce e rho = NSeq [x; y] -> y = NSeq [].
Proof.
  intros Hok. destruct e as [n|l|sup e0 sel args|e0|e0|vs e0|label ps ls ss ret per].
  - cbn [node_of]. unfold rd_node. destruct (resolve n rho) as [[? ?]|]; [destruct (text_eqb n t_self); discriminate|].
    destruct (position n _); [discriminate|].
    destruct (text_eqb n t_nil); [discriminate|]. destruct (text_eqb n t_true); [discriminate|].
    destruct (text_eqb n t_false); [discriminate|]. destruct (ce_known ce n); discriminate.
  - destruct l; cbn [node_of]; [destruct (lit_value l)|]; discriminate.
  - rewrite node_send. destruct (special_form _ _ _ _) as [[k|k|b|b]|].
    + unfold node_special. destruct args as [|a [|]]; try discriminate. destruct k; discriminate.
    + unfold node_special. destruct args as [|a [|a2 [|]]]; try discriminate. destruct k; discriminate.
    + unfold node_special. destruct args as [|a [|]]; discriminate.
    + unfold node_special. destruct args as [|a [|]]; try discriminate. destruct b; discriminate.
    + unfold node_message. destruct (adds_one _ _ _); [discriminate|]. destruct sup; discriminate.
  - discriminate.
  - discriminate.
  - cbn [node_of]. destruct vs as [|v vs]; [discriminate|]. cbn [wr_nodes fold_right]. unfold wr_node at 1.
    destruct (resolve v rho) as [[? ?]|]; [discriminate|].
    destruct (position v _); [match goal with |- context [accesses_field ?a ?b] => destruct (accesses_field a b) end|]; congruence.
  - cbn [node_of]. unfold blk_node. match goal with |- match ?x with _ => _ end = _ -> _ => destruct x end; discriminate.
Qed.

(** Writing self. *)
Lemma self_find scs rho : env_ok scs rho -> homed rho -> exists f scs1,
  find_var t_self scs = (Some (depth rho, f), scs1) /\ scs_le scs scs1.
Proof.
  intros He Hh. destruct (find_var t_self scs) as [r scs1] eqn:Ef.
  destruct (find_var_spec _ _ _ He _ _ Ef) as (E1 & E2 & _). rewrite Hh in E1.
  destruct r as [[k f]|]; [|discriminate]. cbn in E1. injection E1 as -> _. eauto.
Qed.
Definition good (e : src) : Prop := forall scs rho p, env_ok scs rho -> homed rho -> agen ce e scs = Ok p ->
  bare (fst p) = node_of ce e rho /\ scs_le scs (snd p) /\
  (forall i, i < depth rho -> flag i (snd p) = flag i scs || reach i (node_of ce e rho)) /\
  (rets e = true -> rootc (snd p) = true).
Lemma self_level_ok scs rho p : env_ok scs rho -> homed rho -> self_level scs = Ok p ->
  fst p = depth rho /\ scs_le scs (snd p) /\ forall i, i < depth rho -> flag i (snd p) = true.
Proof.
  intros He Hh H. unfold self_level in H. destruct (self_find _ _ He Hh) as (f & scs1 & Ef & L). rewrite Ef in H. injection H as <-.
  split; [reflexivity|]. split; [eapply scs_le_trans; [exact L|apply mark_accessed_le]|].
  intros i Hi. cbn [snd]. rewrite flag_accessed, (find_flag _ _ _ _ _ Ef). replace (i <? depth rho) with true by (symmetry; apply Nat.ltb_lt; auto). apply orb_true_r.
Qed.
Lemma global_ok n scs rho p : env_ok scs rho -> homed rho -> global_node ce n scs = Ok p ->
  fst p = (if text_eqb n t_nil then NLit VNil else if text_eqb n t_true then NLit VTrue
           else if text_eqb n t_false then NLit VFalse else if ce_known ce n then NGlob n else NUnk n (depth rho + in_place rho)) /\
  scs_le scs (snd p) /\ forall i, i < depth rho -> flag i (snd p) = flag i scs || reach i (fst p).
Proof.
  intros He Hh H. unfold global_node in H.
  destruct (text_eqb n t_true) eqn:E1.
  { apply text_eqb_eq in E1. subst n. injection H as <-. split; [reflexivity|]. split; [apply scs_le_refl|]. intros. cbn. rewrite orb_false_r. reflexivity. }
  destruct (text_eqb n t_false) eqn:E2.
  { apply text_eqb_eq in E2. subst n. injection H as <-. split; [reflexivity|]. split; [apply scs_le_refl|]. intros. cbn. rewrite orb_false_r. reflexivity. }
  destruct (text_eqb n t_nil) eqn:E3.
  { injection H as <-. split; [reflexivity|]. split; [apply scs_le_refl|]. intros. cbn. rewrite orb_false_r. reflexivity. }
  destruct (ce_known ce n).
  { injection H as <-. split; [reflexivity|]. split; [apply scs_le_refl|]. intros. cbn. rewrite orb_false_r. reflexivity. }
  AstMerge.mon H. injection H as <-. unfold level_of_self in E. destruct (self_find _ _ He Hh) as (f & scs1 & Ef & L). rewrite Ef in E. cbn [fst] in E.
  injection E as <-. rewrite (in_place_0 _ _ He), Nat.add_0_r. split; [reflexivity|]. split; [apply mark_self_le|]. intros i Hi. cbn [snd fst reach]. rewrite orb_true_r.
  apply flag_self. unfold depth in Hi. rewrite (env_ok_length _ _ He) in Hi. lia.
Qed.
Lemma var_good x : name_ok x = true -> good (SVar x).
Proof.
  intros Hx scs rho p He Hh H. cbn [agen] in H. unfold read_node in H. cbn [rets].
  destruct (find_var x scs) as [r scs1] eqn:Ef. destruct (find_var_spec _ _ _ He _ _ Ef) as (E1 & E2 & _).
  cbn [node_of]. unfold rd_node. destruct r as [[k f]|]; cbn [option_map fst snd] in E1; rewrite E1.
  - assert (E : p = (if text_eqb x t_self then NSelf k else NRead (ref_of f) k, mark_accessed k (ref_of f) scs1)).
    { destruct (text_eqb x t_self) eqn:Es.
      - apply text_eqb_eq in Es. subst x. rewrite Hh in E1. injection E1 as <- E1. destruct f; [discriminate|]. injection H as <-. reflexivity.
      - rewrite (name_ok_neq _ Hx) in H. destruct f; cbn [orb] in H; injection H as <-; reflexivity. }
    subst p. cbn [fst snd]. split; [destruct (text_eqb x t_self); reflexivity|]. split; [eapply scs_le_trans; [exact E2|apply mark_accessed_le]|].
    split; [|discriminate]. intros i Hi. rewrite flag_accessed, (find_flag _ _ _ _ _ Ef). destruct (text_eqb x t_self); reflexivity.
  - apply find_none in Ef. subst scs1. rewrite find_text_position in H. destruct (position x (ce_fields ce)) as [i|].
    + AstMerge.mon H. injection H as <-. destruct (self_level_ok _ _ _ He Hh E) as (S1 & S2 & S3). cbn [fst snd bare]. rewrite S1.
      split; [reflexivity|]. split; auto. split; [|discriminate]. intros j Hj. rewrite S3 by auto. cbn [reach].
      replace (j <? depth rho) with true by (symmetry; apply Nat.ltb_lt; auto). symmetry. apply orb_true_r.
    + destruct (global_ok _ _ _ _ He Hh H) as (G1 & G2 & G3). destruct p as [nd scs']; cbn [fst snd] in *.
      rewrite <- G1. split; [rewrite G1; destruct (text_eqb x t_nil); [reflexivity|]; destruct (text_eqb x t_true); [reflexivity|];
        destruct (text_eqb x t_false); [reflexivity|]; destruct (ce_known ce x); reflexivity|]. split; auto. split; [exact G3|discriminate].
Qed.
Lemma write_good x nd scs rho p : env_ok scs rho -> homed rho -> write_node ce x (nd, scs) = Ok p ->
  bare (fst p) = wr_node ce rho x (bare nd) /\ scs_le scs (snd p) /\
  (forall s0 : nat -> bool, (forall i, i < depth rho -> flag i scs = s0 i || reach i (bare nd)) ->
     forall i, i < depth rho -> flag i (snd p) = s0 i || reach i (wr_node ce rho x (bare nd))).
Proof.
  intros He Hh H. unfold write_node in H. destruct (text_eqb x t_self || text_eqb x t_super); [discriminate|].
  destruct (find_var x scs) as [r scs1] eqn:Ef. destruct (find_var_spec _ _ _ He _ _ Ef) as (E1 & E2 & _).
  unfold wr_node. destruct r as [[k f]|]; cbn [option_map fst snd] in E1; rewrite E1.
  - injection H as <-. cbn [fst snd bare]. split; [reflexivity|]. split; [eapply scs_le_trans; [exact E2|apply mark_accessed_le]|].
    intros s0 H0 i Hi. rewrite flag_accessed, (find_flag _ _ _ _ _ Ef), H0 by auto. cbn [reach]. destruct (s0 i), (reach i (bare nd)), (i <? k); reflexivity.
  - apply find_none in Ef. subst scs1. rewrite find_text_position in H. destruct (position x (ce_fields ce)) as [i|]; [|discriminate].
    AstMerge.mon H. injection H as <-. destruct (self_level_ok _ _ _ He Hh E) as (S1 & S2 & S3). cbn [fst snd]. rewrite S1, access_bare.
    split; [destruct (accesses_field i nd); reflexivity|]. split; auto. intros s0 H0 j Hj. rewrite S3 by auto.
    assert (T : (j <? depth rho) = true) by (apply Nat.ltb_lt; auto). symmetry.
    destruct (accesses_field i nd); cbn [reach]; rewrite T; cbn [orb]; apply orb_true_r.
Qed.
Lemma writes_good vs : forall nd scs rho p, env_ok scs rho -> homed rho -> write_nodes ce vs (nd, scs) = Ok p ->
  bare (fst p) = wr_nodes ce rho vs (bare nd) /\ scs_le scs (snd p) /\
  (forall s0 : nat -> bool, (forall i, i < depth rho -> flag i scs = s0 i || reach i (bare nd)) ->
     forall i, i < depth rho -> flag i (snd p) = s0 i || reach i (wr_nodes ce rho vs (bare nd))).
Proof.
  induction vs as [|v vs IH]; intros nd scs rho p He Hh H; cbn [write_nodes] in H.
  - injection H as <-. cbn [fst snd wr_nodes fold_right]. split; [reflexivity|]. split; [apply scs_le_refl|]. auto.
  - AstMerge.mon H. destruct a as [nd1 scs1]. destruct (IH _ _ _ _ He Hh E) as (I1 & I2 & I3). cbn [fst snd] in *.
    destruct (write_good v nd1 scs1 rho p (env_ok_le _ _ _ He I2) Hh H) as (W1 & W2 & W3). cbn [wr_nodes fold_right].
    fold (wr_nodes ce rho vs (bare nd)). rewrite <- I1. split; auto. split; [eapply scs_le_trans; eauto|].
    intros s0 H0. apply W3. rewrite I1. apply I3. exact H0.
Qed.

(** Lists of expressions. *)
Lemma agens_good l : Forall good l -> forall scs rho p, env_ok scs rho -> homed rho -> agens ce l scs = Ok p ->
  map bare (fst p) = map (fun e => node_of ce e rho) l /\ scs_le scs (snd p) /\
  (forall i, i < depth rho -> flag i (snd p) = flag i scs || existsb (reach i) (map (fun e => node_of ce e rho) l)) /\
  (existsb rets l = true -> rootc (snd p) = true).
Proof.
  induction 1 as [|e l Hg _ IH]; intros scs rho p He Hh H; cbn [agens] in H.
  - injection H as <-. cbn. split; [reflexivity|]. split; [apply scs_le_refl|]. split; [|discriminate]. intros. rewrite orb_false_r. reflexivity.
  - AstMerge.mon H. AstMerge.mon H. injection H as <-. destruct (Hg _ _ _ He Hh E) as (G1 & G2 & G3 & G4).
    destruct (IH _ _ _ (env_ok_le _ _ _ He G2) Hh E0) as (I1 & I2 & I3 & I4). cbn [fst snd map existsb].
    split; [congruence|]. split; [eapply scs_le_trans; eauto|]. split.
    + intros i Hi. rewrite I3, G3 by auto. rewrite orb_assoc. reflexivity.
    + intros Hr. apply orb_true_iff in Hr. destruct Hr as [Hr|Hr]; auto. eapply cm_rootc; [apply le_cm; exact I2|]. auto.
Qed.
Lemma agens_eq l : forall scs, (fix go (l : list src) (scs : list scope) : res (list node * list scope) :=
    match l with
    | [] => Ok ([], scs)
    | a :: l => p <- agen ce a scs ;; q <- go l (snd p) ;; Ok (fst p :: fst q, snd q)
    end) l scs = agens ce l scs.
Proof. reflexivity. Qed.

(** Blocks. *)
Lemma block_bare c label body locals na ss ret rho : bare body = node_body ce ss ret rho -> depth rho <> 0 ->
  forallb ok_src ss = true -> ok_ret ret = true ->
  bare (block_node c label body locals na) = blk_node c label (node_body ce ss ret rho) na.
Proof.
  intros Hb Hd Hs Hr. unfold block_node.
  assert (T : forall e k i x, In e (node_list ce ss ret rho) -> e = NFldW k i x -> k = depth rho).
  { intros e k i x Hi ->. unfold node_list in Hi. apply in_app_or in Hi. destruct Hi as [Hi|Hi].
    - apply in_map_iff in Hi. destruct Hi as (s & Es & Hi). rewrite forallb_forall in Hs. eapply node_fldw_level; eauto.
    - destruct ret as [s|]; [|contradiction]. destruct Hi as [Hi|[]]. unfold ret_node in Hi. destruct (depth rho); discriminate. }
  assert (W : forall x l, bare x = l -> In l (node_list ce ss ret rho) -> triv_write x = None).
  { intros x l Hx Hi. destruct x; try reflexivity. cbn [bare] in Hx. subst l. specialize (T _ _ _ _ Hi eq_refl). subst k.
    cbn [triv_write]. destruct (depth rho); [congruence|]. reflexivity. }
  assert (B : match triv_of body with
    | Some t => match bare body with NLit v => t = ALit v | NArr ls => t = AArr ls | NGlob n => t = AGlob n | NUnk n k => t = AUnk n k | NFldR k i => t = AFld i k | _ => False end
    | None => match bare body with NLit _ | NArr _ | NGlob _ | NUnk _ _ | NFldR _ _ => False | _ => True end end).
  { destruct body; cbn [triv_of bare]; auto.
    - assert (In (bare (NFldW k i body)) (node_list ce ss ret rho)).
      { rewrite Hb. unfold node_body in *. destruct (node_list ce ss ret rho) as [|a [|b l]]; [discriminate|left; reflexivity|discriminate]. }
      rewrite (W (NFldW k i body) _ eq_refl H). exact Logic.I.
    - destruct l as [|x [|y l]]; auto. destruct y; auto. destruct k as [|k]; [|destruct l; exact Logic.I]. destruct l; [|exact Logic.I].
      assert (In (bare x) (node_list ce ss ret rho)).
      { unfold node_body in Hb. destruct (node_list ce ss ret rho) as [|a [|b l]] eqn:El; cbn [seq_node bare map] in Hb.
        - discriminate.
        - exfalso. assert (Hi : In a (node_list ce ss ret rho)) by (rewrite El; left; auto). subst a.
          unfold node_list in Hi. apply in_app_or in Hi. destruct Hi as [Hi|Hi].
          + apply in_map_iff in Hi. destruct Hi as (s & Es & Hi). rewrite forallb_forall in Hs.
            apply node_seq in Es; [discriminate|auto].
          + destruct ret as [s|]; [|contradiction]. destruct Hi as [Hi|[]]. unfold ret_node in Hi. destruct (depth rho); discriminate.
        - injection Hb as -> _ _. left; auto. }
      rewrite (W x _ eq_refl H). exact Logic.I. }
  rewrite <- Hb. destruct (triv_of body) as [t|].
  - destruct (bare body); try contradiction; subst t; reflexivity.
  - cbn [bare]. destruct (bare body); try contradiction; reflexivity.
Qed.
Lemma add_level_ok scs rho ps ls sc : env_ok scs rho -> new_scope (t_block_self :: ps) ls = Ok sc -> env_ok (sc :: scs) (add_level ps ls rho).
Proof.
  intros He H. unfold new_scope in H. destruct (_ && _); [|discriminate]. injection H as <-. constructor; auto.
  split; [reflexivity|]. exists ls, []. cbn. rewrite app_nil_r. auto.
Qed.
Lemma new_flag args ls sc scs i : new_scope args ls = Ok sc -> flag i (sc :: scs) = match i with O => false | S i => flag i scs end.
Proof. intros H. unfold new_scope in H. destruct (_ && _); [|discriminate]. injection H as <-. destruct i; reflexivity. Qed.
Lemma block_good label ps ls ss ret per : ok_src (SBlk label ps ls ss ret per) = true -> self_ok (SBlk label ps ls ss ret per) = true ->
  Forall good ss -> (forall e, ret = Some e -> good e) -> good (SBlk label ps ls ss ret per).
Proof.
  intros Hok Hself Hss Hret scs rho p He Hh H. cbn [ok_src] in Hok. cbn [self_ok] in Hself. repeat rewrite andb_true_iff in Hok. repeat rewrite andb_true_iff in Hself.
  destruct Hok as [[[O1 O2] O3] O4]. destruct Hself as [[[S1 S2] S3] S4].
  cbn [agen] in H. AstMerge.mon H. rename a into sc. AstMerge.mon H. rename a into q. rewrite agens_eq in E0.
  pose proof (add_level_ok _ _ _ _ _ He E) as He1. pose proof (homed_level ps ls rho S1 S2 Hh) as Hh1.
  pose proof (homed_ne _ Hh) as Hne. pose proof (depth_level ps ls rho Hne) as Hd.
  destruct (agens_good ss Hss _ _ _ He1 Hh1 E0) as (A1 & A2 & A3 & A4).
  set (rho1 := add_level ps ls rho) in *. AstMerge.mon H. rename a into u.
  assert (U : map bare (fst u) = node_list ce ss ret rho1 /\ scs_le (sc :: scs) (snd u) /\
    (forall i, i < depth rho1 -> flag i (snd u) = flag i (sc :: scs) || existsb (reach i) (node_list ce ss ret rho1)) /\
    (rets (SBlk label ps ls ss ret per) = true -> rootc (snd u) = true)).
  { unfold node_list. cbn [rets]. destruct ret as [e|].
    - AstMerge.mon E1. AstMerge.mon E1. injection E1 as <-. cbn [fst snd].
      destruct (Hret e eq_refl _ _ _ (env_ok_le _ _ _ He1 A2) Hh1 E2) as (G1 & G2 & G3 & G4).
      destruct (cm_catch _ _ E3) as [_ C2].
      assert (Ll : length (snd a) = S (depth rho1)).
      { rewrite (scs_le_length _ _ G2), (scs_le_length _ _ A2). rewrite Hd. unfold depth. rewrite (env_ok_length _ _ He).
        cbn [length]. destruct scs; [inversion He; subst; congruence|cbn [length]; lia]. }
      assert (L3 : scs_le (snd a) a0).
      { clear - E3. unfold make_catch in E3. destruct (snd a) as [|s [|s2 r]]; try discriminate. injection E3 as <-.
        constructor; [apply set_thr_le|apply mark_nlr_le]. }
      split; [|split; [|split]].
      + rewrite map_app, A1. f_equal. cbn [map bare]. unfold ret_node, max_ctx. rewrite Ll, G1. cbn [Nat.sub]. rewrite Nat.sub_0_r.
        rewrite Hd. reflexivity.
      + eapply scs_le_trans; [exact A2|eapply scs_le_trans; eauto].
      + intros i Hi. rewrite (flag_catch _ _ _ E3) by lia. rewrite existsb_app. cbn [existsb]. unfold ret_node.
        rewrite Hd in Hi |- *. cbn [reach].
        replace (i <? S (depth rho)) with true by (symmetry; apply Nat.ltb_lt; exact Hi). cbn [orb]. rewrite !orb_true_r. reflexivity.
      + auto.
    - injection E1 as <-. rewrite app_nil_r. split; [exact A1|]. split; [exact A2|]. split; [exact A3|]. rewrite orb_false_r. exact A4. }
  destruct U as (U1 & U2 & U3 & U4). destruct (snd u) as [|sc' scs2] eqn:Eu; [discriminate|]. injection H as <-. cbn [fst snd].
  assert (Hbody : bare (seq_node (fst u)) = node_body ce ss ret rho1).
  { unfold node_body. rewrite <- U1. destruct (fst u) as [|x [|y l]]; reflexivity. }
  inversion U2 as [|? ? ? ? L1 L2]; subst.
  assert (F0 : requires_context sc' = reach 0 (node_body ce ss ret rho1)).
  { specialize (U3 0). rewrite Hd in U3. specialize (U3 ltac:(lia)). rewrite (new_flag _ _ _ _ _ E) in U3.
    cbn [orb] in U3. unfold node_body. rewrite reach_seq, <- U3. reflexivity. }
  split; [|split; [exact L2|split]].
  - rewrite (block_bare _ _ _ _ _ ss ret rho1 Hbody); auto; [|rewrite Hd; discriminate]. cbn [node_of].
    change (seq_node _) with (node_body ce ss ret rho1). rewrite F0. f_equal.
    destruct L1 as (-> & _). unfold new_scope in E. destruct (_ && _); [|discriminate]. injection E as <-. reflexivity.
  - intros i Hi. cbn [node_of]. rewrite reach_blk. change (seq_node _) with (node_body ce ss ret rho1).
    specialize (U3 (S i)). rewrite Hd in U3. specialize (U3 ltac:(lia)). rewrite (new_flag _ _ _ _ _ E) in U3.
    unfold node_body. rewrite reach_seq. exact U3.
  - intros Hr. specialize (U4 Hr). destruct scs2; [|exact U4]. inversion L2; subst. inversion He; subst. congruence.
Qed.

(** Inlining. *)
Lemma body_single ss ret rho : forallb ok_src ss = true -> match node_body ce ss ret rho with
  | NUnk _ _ | NFldR _ _ => exists e, ok_src e = true /\ node_of ce e rho = node_body ce ss ret rho
  | _ => True end.
Proof.
  intros Hs. unfold node_body, node_list. destruct ss as [|e [|e2 ss]]; cbn [map app].
  - destruct ret; cbn [seq_node]; auto. unfold ret_node. destruct (depth rho); auto.
  - destruct ret; cbn [seq_node app]; auto. cbn [forallb] in Hs. apply andb_true_iff in Hs. destruct Hs.
    destruct (node_of ce e rho) eqn:E; auto; exists e; auto.
  - cbn [seq_node]. auto.
Qed.
Lemma node_unk e rho n k : ok_src e = true -> node_of ce e rho = NUnk n k ->
  text_eqb n t_nil = false /\ text_eqb n t_true = false /\ text_eqb n t_false = false /\ ce_known ce n = false /\ k = depth rho + in_place rho.
Proof.
  intros Hok. destruct e as [x|l|sup e0 sel args|e0|e0|vs e0|label ps ls ss ret per].
  - cbn [node_of]. unfold rd_node. destruct (resolve x rho) as [[? ?]|]; [destruct (text_eqb x t_self); discriminate|].
    destruct (position x _); [discriminate|].
    destruct (text_eqb x t_nil) eqn:E1; [discriminate|]. destruct (text_eqb x t_true) eqn:E2; [discriminate|].
    destruct (text_eqb x t_false) eqn:E3; [discriminate|]. destruct (ce_known ce x) eqn:E4; [discriminate|]. intros H. injection H as <- <-. auto 6.
  - destruct l; cbn [node_of]; [destruct (lit_value l)|]; discriminate.
  - rewrite node_send. destruct (special_form _ _ _ _) as [[c|c|b|b]|].
    + unfold node_special. destruct args as [|a [|]]; try discriminate. destruct c; discriminate.
    + unfold node_special. destruct args as [|a [|a2 [|]]]; try discriminate. destruct c; discriminate.
    + unfold node_special. destruct args as [|a [|]]; discriminate.
    + unfold node_special. destruct args as [|a [|]]; try discriminate. destruct b; discriminate.
    + unfold node_message. destruct (adds_one _ _ _); [discriminate|]. destruct sup; discriminate.
  - discriminate.
  - discriminate.
  - cbn [node_of]. destruct vs as [|v vs]; [discriminate|]. cbn [wr_nodes fold_right]. unfold wr_node at 1.
    destruct (resolve v rho) as [[? ?]|]; [discriminate|].
    destruct (position v _); [match goal with |- context [accesses_field ?a ?b] => destruct (accesses_field a b) end|]; congruence.
  - cbn [node_of]. unfold blk_node. match goal with |- match ?x with _ => _ end = _ -> _ => destruct x end; discriminate.
Qed.
Lemma reach_inl i label ls ss ret per scs rho : env_ok scs rho -> homed rho ->
  ok_src (SBlk label [] ls ss ret per) = true -> self_ok (SBlk label [] ls ss ret per) = true ->
  reach i (node_of ce (SBlk label [] ls ss ret per) rho) = reach i (node_inl ce (SBlk label [] ls ss ret per) rho) /\
  node_inl ce (SBlk label [] ls ss ret per) rho = lower 0 (node_body ce ss ret (add_level [] ls rho)).
Proof.
  intros He Hh Hok Hself. pose proof (homed_ne _ Hh) as Hne. cbn [node_inl].
  assert (Hi : inlinable 0 (add_level [] ls rho)).
  { cbn [self_ok] in Hself. repeat rewrite andb_true_iff in Hself. split; [|split; [eapply env_single; eauto|apply homed_level; auto; apply Hself]].
    split; [unfold add_level; destruct rho; [congruence|cbn [length]; lia]|reflexivity]. }
  pose proof (proj2 (node_merge ce (SBlk label [] ls ss ret per) Hok Hself) 0 _ Hi) as M. cbn beta iota in M. rewrite merge_add_level in M by auto.
  rewrite M. split; auto. cbn [node_of]. rewrite reach_blk, reach_lower_ge by lia. reflexivity.
Qed.
Lemma inline_good nd label ps ls ss ret per scs rho p : env_ok scs rho -> homed rho ->
  ok_src (SBlk label ps ls ss ret per) = true -> self_ok (SBlk label ps ls ss ret per) = true -> ps = [] ->
  bare nd = node_of ce (SBlk label ps ls ss ret per) rho -> inline_block ce nd scs = Ok p ->
  (forall i, i < depth rho -> reach i (node_inl ce (SBlk label ps ls ss ret per) rho) = true -> flag i scs = true) ->
  bare (fst p) = node_inl ce (SBlk label ps ls ss ret per) rho /\ scs_le scs (snd p) /\
  (forall i, i < depth rho -> flag i (snd p) = flag i scs).
Proof.
  intros He Hh Hok Hself -> Hb H Hf. pose proof (homed_ne _ Hh) as Hne.
  destruct (reach_inl 0 label ls ss ret per scs rho He Hh Hok Hself) as [_ M]. rewrite M in Hf |- *.
  pose proof (proj2 (wf_node ce (SBlk label [] ls ss ret per)) (add_level [] ls rho) ltac:(discriminate)) as Hw. cbn beta iota in Hw.
  rewrite depth_level in Hw by auto. cbn [node_of] in Hb. change (seq_node _) with (node_body ce ss ret (add_level [] ls rho)) in Hb.
  destruct nd; try discriminate; cbn [inline_block] in H.
  - destruct (nargs =? 1); [|discriminate]. destruct scs as [|sc outer]; [discriminate|]. AstMerge.mon H. AstMerge.mon H. injection H as <-. cbn [fst snd].
    assert (Eb : bare nd = node_body ce ss ret (add_level [] ls rho)).
    { cbn [bare] in Hb. unfold blk_node in Hb. destruct (node_body ce ss ret (add_level [] ls rho)); try discriminate; injection Hb; intros; congruence. }
    split; [|split].
    + rewrite <- Eb in Hw |- *. rewrite wf_bare in Hw. eapply adapt_lower; eauto. lia.
    + eapply scs_le_trans; [|exact (mark_locals_le (snd a0) (set_locals a sc :: outer))]. constructor; [|apply scs_le_refl].
      destruct (inline_locals_spec _ _ _ E) as (qs & -> & Hq). split; [reflexivity|]. split; [exists qs; auto|]. repeat split; auto using incl_refl.
    + intros i Hi. rewrite (flag_locals (snd a0) (set_locals a sc :: outer)). destruct i; reflexivity.
  - cbn [bare] in Hb. set (b := node_body ce ss ret (add_level [] ls rho)) in *.
    destruct t.
    + destruct b; cbn [blk_node] in Hb; try discriminate. injection Hb as _ _ -> _. injection H as <-.
      split; [reflexivity|]. split; [apply scs_le_refl|auto].
    + destruct b; cbn [blk_node] in Hb; try discriminate. injection Hb as _ _ -> _. injection H as <-.
      split; [reflexivity|]. split; [apply scs_le_refl|auto].
    + discriminate.
    + pose proof (body_single ss ret (add_level [] ls rho)) as B. fold b in B.
      destruct b; cbn [blk_node] in Hb; try discriminate. injection Hb as _ _ -> -> _.
      cbn [ok_src] in Hok. repeat rewrite andb_true_iff in Hok. destruct (B ltac:(apply Hok)) as (e & Oe & Ee).
      destruct (node_unk _ _ _ _ Oe Ee) as (N1 & N2 & N3 & N4 & N5).
      destruct (global_ok _ _ _ _ He Hh H) as (G1 & G2 & G3). rewrite N1, N2, N3, N4 in G1. rewrite G1 in *. cbn [bare lower adapt_unk].
      assert (In1 : in_place (add_level [] ls rho) = 0).
      { unfold in_place, add_level. cbn [tl]. clear - He. induction He as [|sc2 l2 s r (_ & x & qs & E & _) _ IH]; auto.
        cbn [map list_sum fold_right]. rewrite E. cbn [length]. exact IH. }
      split; [|split; auto].
      * rewrite N5, In1, depth_level, (in_place_0 _ _ He) by auto. f_equal. lia.
      * intros i Hi. rewrite G3 by auto. rewrite (Hf i Hi eq_refl). reflexivity.
    + pose proof (body_single ss ret (add_level [] ls rho)) as B. fold b in B.
      destruct b; cbn [blk_node] in Hb; try discriminate. injection Hb as _ _ -> -> _. AstMerge.mon H. injection H as <-.
      cbn [ok_src] in Hok. repeat rewrite andb_true_iff in Hok. destruct (B ltac:(apply Hok)) as (e & Oe & Ee).
      apply node_fld_level in Ee. rewrite depth_level in Ee by auto.
      destruct (self_level_ok _ _ _ He Hh E) as (S1' & S2' & S3'). cbn [fst snd bare lower]. rewrite S1'.
      split; [subst; rewrite low_gt by lia; f_equal; lia|]. split; auto.
      intros j Hj. rewrite S3' by auto. symmetry. apply Hf; auto. cbn [lower reach]. apply Nat.ltb_lt. subst. rewrite low_gt; lia.
    + discriminate.
Qed.

Lemma bare_then k a b : bare (then_node k a b) = then_node k (bare a) (bare b).
Proof. destruct k; reflexivity. Qed.
Lemma bare_else k a b c : bare (else_node k a b c) = else_node k (bare a) (bare b) (bare c).
Proof. destruct k; reflexivity. Qed.
Lemma reach_then i k a b : reach i (then_node k a b) = reach i a || reach i b.
Proof. destruct k; reflexivity. Qed.
Lemma reach_else i k a b c : reach i (else_node k a b c) = reach i a || reach i b || reach i c.
Proof. destruct k; cbn [else_node reach]; auto. rewrite <- !orb_assoc. f_equal. apply orb_comm. Qed.
Lemma block_parts b : is_block b = true -> no_params b = true -> exists label ls ss ret per, b = SBlk label [] ls ss ret per.
Proof. destruct b; try discriminate. cbn. destruct ps; [|discriminate]. eauto 10. Qed.
(** Inlining a block argument. *)
Lemma inline_arg b nd scs rho p : is_block b = true -> no_params b = true -> ok_src b = true -> self_ok b = true ->
  env_ok scs rho -> homed rho -> bare nd = node_of ce b rho -> inline_block ce nd scs = Ok p ->
  (forall i, i < depth rho -> reach i (node_of ce b rho) = true -> flag i scs = true) ->
  is_block_node nd = true /\ bare (fst p) = node_inl ce b rho /\ scs_le scs (snd p) /\
  (forall i, i < depth rho -> flag i (snd p) = flag i scs) /\
  (forall i, reach i (node_of ce b rho) = reach i (node_inl ce b rho)).
Proof.
  intros Hb Hp Hok Hself He Hh En H Hf. destruct (block_parts b Hb Hp) as (label & ls & ss & ret & per & ->).
  assert (R : forall i, reach i (node_of ce (SBlk label [] ls ss ret per) rho) = reach i (node_inl ce (SBlk label [] ls ss ret per) rho)).
  { intros i. apply (reach_inl i label ls ss ret per scs rho He Hh Hok Hself). }
  destruct (inline_good nd label [] ls ss ret per scs rho p He Hh Hok Hself eq_refl En H) as (I1 & I2 & I3).
  { intros i Hi Hr. apply Hf; auto. rewrite R. exact Hr. }
  split; [|auto]. rewrite <- is_block_bare, En. cbn [node_of]. apply blk_is.
Qed.
Lemma adds_node rho a nd : ok_src a = true -> bare nd = node_of ce a rho ->
  (exists z, nd = NLit (VInt z)) -> exists z, a = SLit (SL (LV (VInt z))) /\ nd = NLit (VInt z).
Proof.
  intros Hok Hb (z & ->). cbn [bare] in Hb. destruct a as [x|l|sup e0 sel args|e0|e0|vs e0|label ps ls ss ret per].
  - exfalso. cbn [node_of] in Hb. unfold rd_node in Hb. destruct (resolve x rho) as [[? ?]|]; [destruct (text_eqb x t_self); discriminate|].
    destruct (position x _); [discriminate|].
    destruct (text_eqb x t_nil); [discriminate|]. destruct (text_eqb x t_true); [discriminate|].
    destruct (text_eqb x t_false); [discriminate|]. destruct (ce_known ce x); discriminate.
  - destruct l as [l|]; cbn [node_of] in Hb; [|discriminate]. destruct l; cbn [lit_value] in Hb; try discriminate; injection Hb as <-; eauto.
  - exfalso. rewrite node_send in Hb. destruct (special_form _ _ _ _) as [[c|c|b|b]|].
    + unfold node_special in Hb. destruct args as [|a [|]]; try discriminate. destruct c; discriminate.
    + unfold node_special in Hb. destruct args as [|a [|a2 [|]]]; try discriminate. destruct c; discriminate.
    + unfold node_special in Hb. destruct args as [|a [|]]; discriminate.
    + unfold node_special in Hb. destruct args as [|a [|]]; try discriminate. destruct b; discriminate.
    + unfold node_message in Hb. destruct (adds_one _ _ _); [discriminate|]. destruct sup; discriminate.
  - discriminate.
  - discriminate.
  - exfalso. cbn [node_of] in Hb. destruct vs as [|v vs]; [discriminate|]. cbn [wr_nodes fold_right] in Hb. unfold wr_node at 1 in Hb.
    destruct (resolve v rho) as [[? ?]|]; [discriminate|].
    destruct (position v _); [match type of Hb with context [accesses_field ?a ?b] => destruct (accesses_field a b) end|]; discriminate.
  - exfalso. cbn [node_of] in Hb. unfold blk_node in Hb. match type of Hb with _ = match ?x with _ => _ end => destruct x end; discriminate.
Qed.
Lemma plus_ok r args nds rho nd : forallb ok_src args = true -> map bare nds = map (fun a => node_of ce a rho) args ->
  plus_node r nds = Ok nd ->
  nd = if adds_one false t_plus args then NInc r else NSend t_plus r nds.
Proof.
  intros Hok Hm H. unfold plus_node in H.
  assert (A : adds_one false t_plus args = match args with [SLit (SL (LV (VInt z)))] => Z.eqb z 1 | _ => false end).
  { unfold adds_one. rewrite text_eqb_refl. reflexivity. }
  rewrite A. clear A.
  destruct args as [|a [|a2 args]].
  - destruct nds; [|discriminate]. injection H as <-. reflexivity.
  - destruct nds as [|x [|y nds]]; try discriminate. cbn [map] in Hm. injection Hm as Hm.
    cbn [forallb] in Hok. apply andb_true_iff in Hok. destruct Hok as [Hok _].
    assert (C : (exists z, a = SLit (SL (LV (VInt z))) /\ x = NLit (VInt z)) \/
      ((forall z, x <> NLit (VInt z)) /\ match a with SLit (SL (LV (VInt z))) => Z.eqb z 1 | _ => false end = false)).
    { destruct x; try (right; split; [congruence|]; destruct a as [|[[[]| |]|]| | | | |]; cbn [node_of bare lit_value] in Hm; try reflexivity; discriminate).
      destruct v; try (right; split; [congruence|]; destruct a as [|[[[]| |]|]| | | | |]; cbn [node_of bare lit_value] in Hm; try reflexivity; discriminate).
      left. destruct (adds_node rho a (NLit (VInt z)) Hok Hm ltac:(eauto)) as (z' & -> & E). eauto. }
    destruct C as [(z & -> & ->)|[C1 C2]].
    + destruct (z =? 1)%Z; injection H as <-; reflexivity.
    + rewrite C2. destruct x; try (injection H as <-; reflexivity).
      * destruct v; try (injection H as <-; reflexivity). exfalso. eapply C1; reflexivity.
      * destruct with_ctx; [discriminate|]. injection H as <-. reflexivity.
      * destruct with_ctx; [discriminate|]. injection H as <-. reflexivity.
  - destruct nds as [|x [|y nds]]; try discriminate.
    assert (E : Ok (NSend t_plus r (x :: y :: nds)) = Ok nd).
    { destruct x; auto. destruct v; auto. destruct with_ctx; auto. destruct with_ctx; auto. }
    injection E as <-. destruct a as [|[[[]| |]|]| | | | |]; reflexivity.
Qed.
Lemma map2_inv (nds : list node) (l : list src) rho : map bare nds = map (fun a => node_of ce a rho) l ->
  match l with
  | [a] => exists x, nds = [x] /\ bare x = node_of ce a rho
  | [a; b] => exists x y, nds = [x; y] /\ bare x = node_of ce a rho /\ bare y = node_of ce b rho
  | _ => True
  end.
Proof.
  destruct l as [|a [|b [|]]]; auto; destruct nds as [|x [|y [|]]]; try discriminate; cbn [map]; intros H; injection H; intros; eauto 6.
Qed.
Lemma send_good sup r sel args : ok_src (SSend sup r sel args) = true -> self_ok (SSend sup r sel args) = true ->
  good r -> Forall good args -> good (SSend sup r sel args).
Proof.
  intros Hok Hself Hr Ha scs rho p He Hh H. cbn [ok_src] in Hok. cbn [self_ok] in Hself. repeat rewrite andb_true_iff in Hok. repeat rewrite andb_true_iff in Hself.
  destruct Hok as [[[O1 O2] O3] O4]. destruct Hself as [S1 S2].
  cbn [agen] in H. AstMerge.mon H. destruct a as [nr scs1]. AstMerge.mon H. destruct a as [nds scs2]. rewrite agens_eq in E0. cbn [fst snd] in *.
  destruct (Hr _ _ _ He Hh E) as (R1 & R2 & R3 & R4). cbn [fst snd] in *.
  destruct (agens_good args Ha _ _ _ (env_ok_le _ _ _ He R2) Hh E0) as (A1 & A2 & A3 & A4). cbn [fst snd] in *.
  pose proof (scs_le_trans _ _ _ R2 A2) as L2. pose proof (env_ok_le _ _ _ He L2) as He2.
  assert (Hroot : rets (SSend sup r sel args) = true -> rootc scs2 = true).
  { cbn [rets]. intros Hx. apply orb_true_iff in Hx. destruct Hx as [Hx|Hx]; auto. eapply cm_rootc; [apply le_cm; exact A2|]. auto. }
  assert (Hfl : forall i, i < depth rho -> flag i scs2 = flag i scs || (reach i (node_of ce r rho) || existsb (reach i) (map (fun a => node_of ce a rho) args))).
  { intros i Hi. rewrite A3, R3 by auto. rewrite orb_assoc. reflexivity. }
  rewrite node_send. destruct (special_form sup r sel args) as [k|] eqn:Es.
  - apply special_shape in Es. destruct Es as (-> & Es & Hs). unfold message_node in H. rewrite Es in H.
    destruct k as [k|k|b|b]; cbn [node_special].
    + destruct Hs as (a & -> & Hb). destruct (map2_inv _ _ _ A1) as (x & -> & Ex). cbn [forallb] in *. rewrite andb_true_r in *.
      cbn [map existsb] in Hfl. cbn [inline_special] in H.
      assert (Eb : is_block_node x = true) by (rewrite <- is_block_bare, Ex, node_block; auto). rewrite Eb in H.
      AstMerge.mon H. AstMerge.mon E1. injection E1 as <-. injection H as <-. cbn [fst snd].
      destruct (inline_arg a x scs2 rho a1 Hb O4 O2 S2 He2 Hh Ex E2) as (_ & I1 & I2 & I3 & I4).
      { intros i Hi Hx. rewrite Hfl, Hx by auto. cbn [orb]. rewrite !orb_true_r. reflexivity. }
      split; [rewrite bare_then, R1, I1; reflexivity|]. split; [eapply scs_le_trans; eauto|]. split.
      * intros i Hi. rewrite I3, Hfl, I4, reach_then by auto. rewrite orb_false_r. reflexivity.
      * intros Hx. eapply cm_rootc; [apply le_cm; exact I2|]. auto.
    + destruct Hs as (a & b & -> & Hb & Hb2). destruct (map2_inv _ _ _ A1) as (x & y & -> & Ex & Ey). cbn [forallb] in *. rewrite !andb_true_r in *.
      apply andb_true_iff in O2, S2, O4. destruct O2 as [O2 O2'], S2 as [S2 S2'], O4 as [O4 O4'].
      cbn [map existsb] in Hfl. cbn [inline_special] in H.
      assert (Eb : is_block_node x = true) by (rewrite <- is_block_bare, Ex, node_block; auto).
      assert (Eb2 : is_block_node y = true) by (rewrite <- is_block_bare, Ey, node_block; auto). rewrite Eb, Eb2 in H. cbn [andb] in H.
      AstMerge.mon H. AstMerge.mon E1. AstMerge.mon E1. injection E1 as <-. injection H as <-. cbn [fst snd].
      destruct (inline_arg a x scs2 rho a1 Hb O4 O2 S2 He2 Hh Ex E2) as (_ & I1 & I2 & I3 & I4).
      { intros i Hi Hx. rewrite Hfl, Hx by auto. cbn [orb]. rewrite !orb_true_r. reflexivity. }
      destruct (inline_arg b y (snd a1) rho a2 Hb2 O4' O2' S2' (env_ok_le _ _ _ He2 I2) Hh Ey E3) as (_ & J1 & J2 & J3 & J4).
      { intros i Hi Hx. rewrite I3, Hfl, Hx by auto. cbn [orb]. rewrite !orb_true_r. reflexivity. }
      pose proof (scs_le_trans _ _ _ I2 J2) as L4.
      split; [rewrite bare_else, R1, I1, J1; reflexivity|]. split; [eapply scs_le_trans; eauto|]. split.
      * intros i Hi. rewrite J3, I3, Hfl, I4, J4, reach_else by auto. rewrite orb_false_r, !orb_assoc. reflexivity.
      * intros Hx. eapply cm_rootc; [apply le_cm; exact L4|]. auto.
    + destruct Hs as (a & -> & Hb & Hb2). destruct (map2_inv _ _ _ A1) as (y & -> & Ey). cbn [forallb] in *. rewrite !andb_true_r in *.
      apply andb_true_iff in O4. destruct O4 as [O4 O4'].
      cbn [map existsb] in Hfl. cbn [inline_special] in H.
      assert (Eb : is_block_node nr = true) by (rewrite <- is_block_bare, R1, node_block; auto).
      assert (Eb2 : is_block_node y = true) by (rewrite <- is_block_bare, Ey, node_block; auto). rewrite Eb, Eb2 in H. cbn [andb] in H.
      AstMerge.mon H. AstMerge.mon E1. AstMerge.mon E1. injection E1 as <-. injection H as <-. cbn [fst snd].
      destruct (inline_arg r nr scs2 rho a1 Hb O4 O1 S1 He2 Hh R1 E2) as (_ & I1 & I2 & I3 & I4).
      { intros i Hi Hx. rewrite Hfl, Hx by auto. cbn [orb]. rewrite !orb_true_r. reflexivity. }
      destruct (inline_arg a y (snd a1) rho a2 Hb2 O4' O2 S2 (env_ok_le _ _ _ He2 I2) Hh Ey E3) as (_ & J1 & J2 & J3 & J4).
      { intros i Hi Hx. rewrite I3, Hfl, Hx by auto. cbn [orb]. rewrite !orb_true_r. reflexivity. }
      pose proof (scs_le_trans _ _ _ I2 J2) as L4. cbn [bare reach].
      split; [rewrite I1, J1; reflexivity|]. split; [eapply scs_le_trans; eauto|]. split.
      * intros i Hi. rewrite J3, I3, Hfl, I4, J4 by auto. rewrite orb_false_r. reflexivity.
      * intros Hx. eapply cm_rootc; [apply le_cm; exact L4|]. auto.
    + destruct Hs as (a & -> & Hb). destruct (map2_inv _ _ _ A1) as (x & -> & Ex). cbn [forallb] in *. rewrite andb_true_r in *.
      cbn [map existsb] in Hfl. cbn [inline_special] in H.
      assert (Eb : is_block_node x = true) by (rewrite <- is_block_bare, Ex, node_block; auto). rewrite Eb in H.
      AstMerge.mon H. AstMerge.mon E1. injection E1 as <-. injection H as <-. cbn [fst snd].
      destruct (inline_arg a x scs2 rho a1 Hb O4 O2 S2 He2 Hh Ex E2) as (_ & I1 & I2 & I3 & I4).
      { intros i Hi Hx. rewrite Hfl, Hx by auto. cbn [orb]. rewrite !orb_true_r. reflexivity. }
      split; [destruct b; cbn [bare]; rewrite R1, I1; reflexivity|]. split; [eapply scs_le_trans; eauto|]. split.
      * intros i Hi. rewrite I3, Hfl, I4 by auto. rewrite orb_false_r. destruct b; reflexivity.
      * intros Hx. eapply cm_rootc; [apply le_cm; exact I2|]. auto.
  - assert (Q : p = (if adds_one sup sel args then NInc nr else if sup then NSuper sel nr nds else NSend sel nr nds, scs2)).
    { unfold message_node in H. destruct sup.
      - injection H as <-. reflexivity.
      - AstMerge.mon H. assert (a = None).
        { clear H. destruct (special_of sel) as [k|] eqn:Ek; [|injection E1 as <-; reflexivity].
          unfold special_form in Es. rewrite Ek in Es.
          assert (Bk : forall x e, bare x = node_of ce e rho -> ok_src e = true -> is_block_node x = is_block e).
          { intros x e Hx Hk. rewrite <- is_block_bare, Hx. apply node_block. auto. }
          pose proof (map2_inv _ _ _ A1) as M. rewrite forallb_forall in O2.
          destruct k as [k|k|b|b]; cbn [inline_special] in E1.
          - destruct args as [|a1 [|a2 args]]; [destruct nds; [injection E1 as <-; auto|discriminate]| |destruct nds as [|? [|]]; try discriminate; injection E1 as <-; auto].
            destruct M as (x & -> & Ex). rewrite (Bk _ _ Ex) in E1 by (apply O2; left; auto).
            destruct (is_block a1); [discriminate|injection E1 as <-; auto].
          - destruct args as [|a1 [|a2 [|a3 args]]].
            + destruct nds; [injection E1 as <-; auto|discriminate].
            + destruct M as (x & -> & Ex). injection E1 as <-; auto.
            + destruct M as (x & y & -> & Ex & Ey). rewrite (Bk _ _ Ex), (Bk _ _ Ey) in E1 by (apply O2; cbn; auto).
              destruct (is_block a1 && is_block a2); [discriminate|injection E1 as <-; auto].
            + destruct nds as [|? [|? [|]]]; try discriminate; injection E1 as <-; auto.
          - destruct args as [|a1 [|a2 args]]; [destruct nds; [injection E1 as <-; auto|discriminate]| |destruct nds as [|? [|]]; try discriminate; injection E1 as <-; auto].
            destruct M as (x & -> & Ex). rewrite (Bk _ _ Ex) in E1 by (apply O2; left; auto). rewrite (Bk _ _ R1) in E1 by auto.
            destruct (is_block r && is_block a1); [discriminate|injection E1 as <-; auto].
          - destruct args as [|a1 [|a2 args]]; [destruct nds; [injection E1 as <-; auto|discriminate]| |destruct nds as [|? [|]]; try discriminate; injection E1 as <-; auto].
            destruct M as (x & -> & Ex). rewrite (Bk _ _ Ex) in E1 by (apply O2; left; auto).
            destruct (is_block a1); [discriminate|injection E1 as <-; auto]. }
        subst a. destruct (text_eqb sel t_plus) eqn:Ep.
        + apply text_eqb_eq in Ep. subst sel. AstMerge.mon H. injection H as <-. rewrite (plus_ok _ _ _ _ _ O2 A1 E2). reflexivity.
        + injection H as <-. unfold adds_one. rewrite Ep. reflexivity. }
    subst p. cbn [fst snd]. unfold node_message. split; [|split; [exact L2|split; [|exact Hroot]]].
    + destruct (adds_one sup sel args); [cbn [bare]; congruence|]. destruct sup; cbn [bare]; congruence.
    + intros i Hi. rewrite Hfl by auto. f_equal. destruct (adds_one sup sel args) eqn:Ea.
      * unfold adds_one in Ea. apply andb_true_iff in Ea. destruct Ea as [_ Ea]. destruct args as [|[|[[[]| |]|]| | | | |] [|]]; try discriminate.
        cbn [map existsb node_of lit_value reach]. rewrite !orb_false_r. reflexivity.
      * destruct sup; reflexivity.
Qed.
Theorem gen_good : forall e, ok_src e = true -> self_ok e = true -> good e.
Proof.
  induction e as [x|l|sup e sel args IHe IHargs|e IHe|e IHe|vs e IHe|label ps ls ss ret per IHss IHret] using src_ind';
    intros Hok Hself.
  - apply var_good. exact Hok.
  - intros scs rho p He Hh H. cbn [rets]. destruct l as [l|ls]; cbn [agen] in H; cbn [node_of].
    + destruct (lit_value l); [|discriminate]. injection H as <-. split; [reflexivity|]. split; [apply scs_le_refl|]. split; [|discriminate].
      intros. cbn. rewrite orb_false_r. reflexivity.
    + injection H as <-. split; [reflexivity|]. split; [apply scs_le_refl|]. split; [|discriminate].
      intros. cbn. rewrite orb_false_r. reflexivity.
  - pose proof Hok as Hok0. pose proof Hself as Hself0. cbn [ok_src] in Hok0. cbn [self_ok] in Hself0. repeat rewrite andb_true_iff in Hok0. repeat rewrite andb_true_iff in Hself0.
    destruct Hok0 as [[[O1 O2] O3] O4]. destruct Hself0 as [S1 S2].
    apply send_good; auto. rewrite forallb_forall in O2, S2. rewrite Forall_forall in *. auto.
  - intros scs rho p He Hh H. cbn [agen] in H. AstMerge.mon H. injection H as <-. cbn [fst snd node_of rets bare reach].
    destruct (IHe Hok Hself _ _ _ He Hh E) as (G1 & G2 & G3 & G4). rewrite G1. auto.
  - intros scs rho p He Hh H. cbn [agen] in H. AstMerge.mon H. injection H as <-. cbn [fst snd node_of rets bare reach map existsb].
    destruct (IHe Hok Hself _ _ _ He Hh E) as (G1 & G2 & G3 & G4). rewrite G1. split; auto. split; auto. split; auto.
    intros i Hi. rewrite !orb_false_r. auto.
  - intros scs rho p He Hh H. cbn [agen] in H. AstMerge.mon H. cbn [node_of rets].
    cbn [ok_src] in Hok. apply andb_true_iff in Hok. destruct Hok as [_ Hok].
    destruct (IHe Hok Hself _ _ _ He Hh E) as (G1 & G2 & G3 & G4). destruct a as [nd scs1]. cbn [fst snd] in *.
    destruct (writes_good vs nd scs1 rho p (env_ok_le _ _ _ He G2) Hh H) as (W1 & W2 & W3). rewrite <- G1. split; auto.
    split; [eapply scs_le_trans; eauto|]. split.
    + apply (W3 (fun i => flag i scs)). rewrite G1. exact G3.
    + intros Hx. eapply cm_rootc; [apply le_cm; exact W2|]. auto.
  - pose proof Hok as Hok0. pose proof Hself as Hself0. cbn [ok_src] in Hok0. cbn [self_ok] in Hself0. repeat rewrite andb_true_iff in Hok0. repeat rewrite andb_true_iff in Hself0.
    destruct Hok0 as [[[O1 O2] O3] O4]. destruct Hself0 as [[[S1 S2] S3] S4].
    apply block_good; auto.
    + rewrite forallb_forall in O3, S3. rewrite Forall_forall in *. auto.
    + intros e ->. auto.
Qed.
(** Whole methods. *)
Definition method_nodes (ss : list src) (ret : option src) (rho : env) : list node :=
  map (fun e => node_of ce e rho) (ss ++ [match ret with Some e => e | None => SVar t_self end]).
Theorem compile_good ps ls ss ret am : forallb ok_src ss = true -> ok_ret ret = true ->
  forallb self_ok ss = true -> self_ret ret = true -> no_self (map fst ls) = true ->
  compile_ast ce ps ls ss ret = Ok am ->
  exists catch nds, am = assemble_ast catch (seq_node nds) (S (length ps)) /\
    map bare nds = method_nodes ss ret [Level [ls] (t_self :: ps)] /\
    (existsb rets ss || match ret with Some e => rets e | None => false end = true -> catch = true).
Proof.
  intros O1 O2 S1 S2 Hl H. unfold compile_ast in H. AstMerge.mon H. AstMerge.mon H. AstMerge.mon H. rename a into sc. rename a0 into q. rename a1 into u.
  set (rho := [Level [ls] (t_self :: ps)]).
  assert (He : env_ok [sc] rho).
  { unfold new_scope in E. destruct (_ && _); [|discriminate]. injection E as <-. constructor; [|constructor].
    split; [reflexivity|]. exists ls, []. cbn. rewrite app_nil_r. auto. }
  assert (Hh : homed rho).
  { unfold homed, rho. cbn [resolve]. unfold in_level. cbn [lv_layers lv_args in_layers]. rewrite (in_layer_self _ Hl). reflexivity. }
  assert (Hg : Forall good ss).
  { rewrite forallb_forall in O1, S1. apply Forall_forall. intros e He'. apply gen_good; auto. }
  destruct (agens_good ss Hg _ _ _ He Hh E0) as (A1 & A2 & A3 & A4).
  set (r := match ret with Some e => e | None => SVar t_self end) in *.
  assert (Hr : good r).
  { unfold r. destruct ret; [apply gen_good; auto|apply var_good; reflexivity]. }
  destruct (Hr _ _ _ (env_ok_le _ _ _ He A2) Hh E1) as (G1 & G2 & G3 & G4).
  destruct (snd u) as [|sc1 rest] eqn:Eu; [discriminate|]. injection H as <-.
  pose proof (scs_le_trans _ _ _ A2 G2) as L. inversion L as [|? ? ? ? L1 L2]; subst. inversion L2; subst.
  exists (sc_catch sc1), (fst q ++ [fst u]). split; [|split].
  - f_equal. destruct L1 as (-> & _). unfold new_scope in E. destruct (_ && _); [|discriminate]. injection E as <-. reflexivity.
  - unfold method_nodes. rewrite !map_app, A1. cbn [map]. rewrite G1. reflexivity.
  - intros Hx. apply orb_true_iff in Hx. destruct Hx as [Hx|Hx].
    + exact (cm_rootc _ _ (le_cm _ _ G2) (A4 Hx)).
    + apply G4. unfold r. destruct ret; [exact Hx|discriminate].
Qed.
End Gen.
