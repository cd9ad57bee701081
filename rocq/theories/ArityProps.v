From Coq Require Import ZArith Bool List Lia Arith.
From Verif Require Import Base FrameModel FrameSpec FrameProofs ArityModel AritySpec.
Import ListNotations.
Local Open Scope nat_scope.

Lemma map_repeat {A B} (f : A -> B) x n : map f (repeat x n) = repeat (f x) n.
Proof. induction n; cbn; congruence. Qed.

Lemma with_at_length {A} i (v : A) l : length (with_at i v l) = length l.
Proof. revert i. induction l; intros [|i]; cbn; auto. Qed.

Lemma pick_with_at b flags (xs : list value) j v f : length xs = length flags -> nth_error flags j = Some f ->
  pick b flags (with_at j v xs) =
  if eqb f b then with_at (num b (firstn j flags)) v (pick b flags xs) else pick b flags xs.
Proof.
  revert xs j. induction flags as [|g flags IH]; intros [|x xs] j L N; try discriminate; [destruct j; discriminate|].
  injection L as L. destruct j as [|j]; cbn [nth_error] in N.
  - injection N as ->. cbn [with_at firstn pick]. destruct (eqb f b); reflexivity.
  - cbn [with_at firstn pick]. rewrite (IH xs j L N), num_cons.
    destruct (eqb f b), (eqb g b); reflexivity.
Qed.

Lemma pick_nils b flags : pick b flags (nils (length flags)) = nils (num b flags).
Proof.
  induction flags as [|f flags IH]; [reflexivity|]. cbn [length nils repeat pick]. rewrite num_cons.
  change (repeat VNil (length flags)) with (nils (length flags)). rewrite IH.
  destruct (eqb f b); reflexivity.
Qed.

Lemma enter_right s rcvr args : length args = parameters s ->
  (forall e, ast_accepts e (length args) -> ast_enter e (prepare_frame s) rcvr args = Ok (frame_of s rcvr args)) /\
  (forall e, bc_accepts e (length args) -> bc_enter e (prepare_frame s) rcvr args = Ok (frame_of s rcvr args)).
Proof. intros L. split; intros e A; [apply ast_enter_spec|apply bc_enter_spec]; assumption. Qed.

Lemma nils_frame s rcvr :
  create_frame_1 rcvr (ly_size_frame (prepare_frame s)) (ly_size_inner (prepare_frame s))
  = Ok (frame_of s rcvr (nils (parameters s))).
Proof.
  destruct (prepare_spec s) as (_ & -> & -> & _).
  unfold create_frame_1, frame_of, parameters. rewrite !pick_nils. unfold nils. rewrite map_repeat.
  rewrite <- !repeat_app. destruct (wants_inner s); reflexivity.
Qed.

Lemma like_flag s i k : i < parameters s -> k < parameters s ->
  ((used_by_nested_block s (Arg i) <-> used_by_nested_block s (Arg k)) <->
   nth i (sc_args s) false = nth k (sc_args s) false).
Proof.
  unfold parameters. intros Hi Hk. cbn [used_by_nested_block].
  rewrite !(nth_error_nth' _ false) by assumption.
  destruct (nth i _ _), (nth k _ _); split; try congruence; try tauto.
  - intros [H _]. specialize (H eq_refl). congruence.
  - intros [_ H]. specialize (H eq_refl). congruence.
Qed.

(** One argument, whatever the number of parameters. *)
Lemma one_frame s rcvr a b j : nth_error (sc_args s) j = Some b -> num b (firstn j (sc_args s)) = 0 ->
  create_frame_2 rcvr a b (ly_size_frame (prepare_frame s)) (ly_size_inner (prepare_frame s))
  = Ok (frame_of s rcvr (with_at j a (nils (parameters s)))).
Proof.
  intros N Z. destruct (prepare_spec s) as (_ & -> & -> & _).
  assert (P : 0 < num b (sc_args s)).
  { pose proof (num_firstn_lt _ _ _ N). lia. }
  unfold frame_of, parameters. rewrite !(pick_with_at _ _ _ _ _ b) by (assumption || apply repeat_length).
  rewrite !pick_nils. unfold nils.
  unfold create_frame_2. destruct (wants_inner s) eqn:W.
  - destruct b; cbn [eqb]; rewrite Z; destruct (num _ (sc_args s)) eqn:E; try lia;
      rewrite ?E; cbn; rewrite ?map_repeat, <- !repeat_app; reflexivity.
  - destruct (wants_inner_false _ W) as [Na _]. destruct b; [lia|]. cbn [eqb]. rewrite Z.
    destruct (num false (sc_args s)) eqn:E; [lia|]. cbn. rewrite map_repeat, <- !repeat_app. reflexivity.
Qed.

Lemma two_frame s rcvr a b x y i j :
  nth_error (sc_args s) i = Some x -> nth_error (sc_args s) j = Some y -> i <> j ->
  num x (firstn i (sc_args s)) = 0 ->
  num y (firstn j (sc_args s)) = (if eqb x y then 1 else 0) ->
  (if 0 <? ly_size_inner (prepare_frame s)
   then create_frame_3_with rcvr a b x y (ly_size_frame (prepare_frame s)) (ly_size_inner (prepare_frame s))
   else create_frame_3_with rcvr a b false false (ly_size_frame (prepare_frame s)) (ly_size_inner (prepare_frame s)))
  = Ok (frame_of s rcvr (with_at j b (with_at i a (nils (parameters s))))).
Proof.
  intros Ni Nj Ne Zi Zj. destruct (prepare_spec s) as (_ & -> & -> & _).
  assert (Px : 0 < num x (sc_args s)) by (pose proof (num_firstn_lt _ _ _ Ni); lia).
  assert (Py : (if eqb x y then 1 else 0) < num y (sc_args s)) by (pose proof (num_firstn_lt _ _ _ Nj); lia).
  unfold frame_of, parameters.
  rewrite !(pick_with_at _ _ _ j _ y) by (assumption || (rewrite with_at_length; apply repeat_length)).
  rewrite !(pick_with_at _ _ _ i _ x) by (assumption || apply repeat_length).
  rewrite !pick_nils. unfold nils.
  unfold create_frame_3_with. destruct (wants_inner s) eqn:W.
  - destruct x, y; cbn [eqb] in *; rewrite Zi, Zj.
    + destruct (num true (sc_args s)) as [|[|n]]; try lia. cbn. rewrite map_repeat, <- !repeat_app. reflexivity.
    + destruct (num true (sc_args s)) as [|n]; try lia. destruct (num false (sc_args s)) as [|m]; try lia.
      cbn. rewrite map_repeat, <- !repeat_app. reflexivity.
    + destruct (num true (sc_args s)) as [|n]; try lia. destruct (num false (sc_args s)) as [|m]; try lia.
      cbn. rewrite map_repeat, <- !repeat_app. reflexivity.
    + destruct (num false (sc_args s)) as [|[|n]]; try lia. cbn. rewrite map_repeat, <- !repeat_app. reflexivity.
  - destruct (wants_inner_false _ W) as [Na _]. destruct x, y; try lia. cbn [eqb] in *. rewrite Zi, Zj.
    destruct (num false (sc_args s)) as [|[|n]]; try lia. cbn. rewrite map_repeat, <- !repeat_app. reflexivity.
Qed.

Lemma kth_flag b flags : forall k, k < num b flags ->
  exists j, nth_error flags j = Some b /\ num b (firstn j flags) = k.
Proof.
  induction flags as [|f flags IH]; intros k K; [cbn in K; lia|].
  rewrite num_cons in K. destruct (eqb f b) eqn:E.
  - apply eqb_prop in E. subst f. destruct k as [|k]; [exists 0; split; reflexivity|].
    destruct (IH k ltac:(lia)) as (j & N & C). exists (S j). split; [exact N|].
    cbn [firstn]. rewrite num_cons, eqb_reflx. lia.
  - destruct (IH k ltac:(lia)) as (j & N & C). exists (S j). split; [exact N|].
    cbn [firstn]. rewrite num_cons, E. exact C.
Qed.

Lemma nth_flag s i b : nth_error (sc_args s) i = Some b -> i < parameters s /\ nth i (sc_args s) false = b.
Proof.
  intros N. split; [apply nth_error_Some; congruence|]. apply nth_error_nth. exact N.
Qed.

Lemma first_like_first s k i b : k < parameters s -> nth k (sc_args s) false = b ->
  nth_error (sc_args s) i = Some b -> num b (firstn i (sc_args s)) = 0 -> first_like s k (fun _ => False) i.
Proof.
  intros K B N Z. destruct (nth_flag _ _ _ N) as [Li Fi].
  split; [exact Li|]. split; [tauto|]. split; [apply like_flag; try assumption; congruence|].
  intros j J _ Q. apply like_flag in Q; [|lia|exact K].
  assert (Nj : nth_error (sc_args s) j = Some b).
  { unfold parameters in Li. rewrite (nth_error_nth' _ false) by lia. congruence. }
  pose proof (num_firstn_mono b _ j i Nj J). lia.
Qed.
Lemma first_like_next s k i j b c : k < parameters s -> nth k (sc_args s) false = b ->
  nth_error (sc_args s) i = Some c -> num c (firstn i (sc_args s)) = 0 ->
  nth_error (sc_args s) j = Some b -> num b (firstn j (sc_args s)) = (if eqb c b then 1 else 0) ->
  i <> j /\ first_like s k (eq i) j.
Proof.
  intros K B Ni Zi Nj Zj. destruct (nth_flag _ _ _ Nj) as [Lj Fj].
  assert (Ne : i <> j).
  { intros ->. rewrite Ni in Nj. injection Nj as ->. rewrite eqb_reflx in Zj. lia. }
  split; [exact Ne|].
  split; [exact Lj|]. split; [exact Ne|]. split; [apply like_flag; try assumption; congruence|].
  intros l L Nl Q. apply like_flag in Q; [|lia|exact K].
  assert (Nb : nth_error (sc_args s) l = Some b).
  { unfold parameters in Lj. rewrite (nth_error_nth' _ false) by lia. congruence. }
  pose proof (num_firstn_mono b _ l j Nb L). destruct (eqb c b) eqn:E; [|lia].
  apply eqb_prop in E. subst c. apply Nl. apply (num_firstn_inj b (sc_args s)); [exact Ni|exact Nb|lia].
Qed.

(** * C66 *)
(** With the right number of arguments, up to two, the method runs as it does when it is sent the
    message. *)
Theorem C66_right_number_partial : forall s rcvr given,
  length given = parameters s -> length given <= 2 ->
  ast_runs_as s rcvr given given /\ bc_runs_as s rcvr given given.
Proof.
  intros s rcvr given L U. destruct (enter_right s rcvr given L) as [A B].
  destruct given as [|a [|b [|c given]]]; cbn [length] in *; try lia;
    (split; (split; [exact L|]); eexists; (split; [|eassumption]);
     unfold ast_perform, bc_perform; first [apply A|apply B]; reflexivity).
Qed.
Print Assumptions C66_right_number_partial.

(** With more than two, perform:withArguments: is always refused, even if the number is right. *)
Theorem C66_more_than_two_refuted : forall s rcvr given, 3 <= length given -> refused PyException s rcvr given.
Proof. intros s rcvr [|a [|b [|c given]]] L; cbn [length] in L; try lia. split; reflexivity. Qed.
Print Assumptions C66_more_than_two_refuted.

(** No argument, any number of parameters: the body runs, all its parameters are nil. *)
Theorem C66_none_given_refuted : forall s rcvr,
  ast_runs_as s rcvr [] (nils (parameters s)) /\ bc_runs_as s rcvr [] (nils (parameters s)).
Proof.
  intros s rcvr. assert (L : length (nils (parameters s)) = parameters s) by apply repeat_length.
  destruct (enter_right s rcvr _ L) as [A B].
  split; (split; [exact L|]); eexists; (split; [apply nils_frame|assumption]).
Qed.
Print Assumptions C66_none_given_refuted.

(** One argument and no parameter: refused. *)
Theorem C66_one_too_many_partial : forall s rcvr a, parameters s = 0 -> refused IndexError s rcvr [a].
Proof.
  intros s rcvr a P. unfold refused, ast_perform, bc_perform. cbn [ast_enter bc_enter].
  rewrite bc_access. destruct (prepare_spec s) as (-> & _). unfold parameters in P.
  destruct (sc_args s); [|discriminate]. split; reflexivity.
Qed.
Print Assumptions C66_one_too_many_partial.

(** One argument and more parameters: the body runs.  In the AST interpreter the first parameter is
    the argument and the others are nil; in the bytecode interpreter it is the first parameter that
    nested blocks use just as the last one. *)
Theorem C66_one_given_refuted : forall s rcvr a, 1 <= parameters s ->
  ast_runs_as s rcvr [a] (with_at 0 a (nils (parameters s))) /\
  exists i, first_like s (parameters s - 1) (fun _ => False) i /\
    bc_runs_as s rcvr [a] (with_at i a (nils (parameters s))).
Proof.
  intros s rcvr a P.
  assert (L : forall i, length (with_at i a (nils (parameters s))) = parameters s)
    by (intros i; rewrite with_at_length; apply repeat_length).
  split.
  - split; [apply L|]. eexists. split; [|apply (enter_right s rcvr _ (L 0))].
    cbn [ast_perform ast_enter]. destruct (prepare_spec s) as (-> & _).
    assert (exists b, nth_error (sc_args s) 0 = Some b) as [b N] by (apply nth_declared; exact P).
    rewrite (get_nth _ _ _ N). cbn [bind]. apply one_frame; [exact N|reflexivity].
  - set (b := nth (parameters s - 1) (sc_args s) false).
    assert (N : nth_error (sc_args s) (parameters s - 1) = Some b)
      by (apply nth_error_nth'; unfold parameters in *; lia).
    pose proof (num_firstn_lt _ _ _ N) as C.
    destruct (kth_flag b (sc_args s) 0 ltac:(lia)) as (i & Ni & Zi).
    exists i. split; [eapply first_like_first; eauto; lia|].
    split; [apply L|]. eexists. split; [|apply (enter_right s rcvr _ (L i))].
    cbn [bc_perform bc_enter]. rewrite bc_access.
    rewrite (get_nth _ _ b); [cbn [bind]; apply one_frame; assumption|].
    unfold parameters in *. rewrite (nth_error_nth' _ false) by (rewrite rev_length; lia).
    rewrite List.rev_nth by lia. reflexivity.
Qed.
Print Assumptions C66_one_given_refuted.

(** Two arguments and fewer parameters: refused if a nested block uses a variable, self or a return
    of the method, or if there are not enough locals to overwrite. *)
Theorem C66_two_given_partial : forall s rcvr a b, parameters s <= 1 ->
  ~ self_contained s \/ parameters s + length (sc_locals s) <= 1 ->
  refused IndexError s rcvr [a; b].
Proof.
  intros s rcvr a b P H.
  assert (W : wants_inner s = true \/ (wants_inner s = false /\ parameters s + length (sc_locals s) <= 1)).
  { destruct (wants_inner s) eqn:W; [left; reflexivity|right; split; [reflexivity|]].
    destruct H as [H|H]; [exfalso; apply H|exact H]. destruct (wants_inner_false _ W) as [Na Nl].
    unfold wants_inner in W. apply orb_false_elim in W. destruct W as [W W4].
    apply orb_false_elim in W. destruct W as [W W3]. apply orb_false_elim in W. destruct W as [W1 _].
    split; [exact W1|]. split; [exact W3|]. intros [|i|i] D U; cbn [used_by_nested_block] in U; try congruence;
      apply num_firstn_lt in U; lia. }
  unfold refused, ast_perform, bc_perform. cbn [ast_enter bc_enter]. rewrite bc_access.
  destruct (prepare_spec s) as (-> & -> & -> & _). unfold parameters in *.
  unfold ast_create_frame_3, bc_create_frame_3.
  destruct W as [->|[W Few]].
  - destruct (sc_args s) as [|x [|y t]]; cbn [length] in P; try lia; split; reflexivity.
  - rewrite W. destruct (wants_inner_false _ W) as [Na Nl]. unfold create_frame_3_with. cbn [Nat.ltb Nat.leb].
    rewrite (num_false_all _ Na), (num_false_all _ Nl).
    destruct (length (sc_args s) + length (sc_locals s)) as [|[|n]]; [| |lia]; split; reflexivity.
Qed.
Print Assumptions C66_two_given_partial.

Lemma contained_inner s : self_contained s -> wants_inner s = false.
Proof.
  intros (R & C & U). unfold wants_inner. rewrite R, C.
  assert (Z : forall b, b = sc_args s \/ b = sc_locals s -> num true b = 0).
  { intros b H. destruct (num true b) eqn:E; [reflexivity|].
    destruct (kth_flag true b 0 ltac:(lia)) as (j & N & _).
    assert (J : j < length b) by (apply nth_error_Some; congruence).
    destruct H as [->| ->]; [destruct (U (Arg j) J N)|destruct (U (Local j) J N)]. }
  rewrite !Z by auto. cbn. destruct (sc_self s) eqn:E; [|reflexivity]. destruct (U Self I E).
Qed.

(** Otherwise the body runs, and the arguments left over are the first values of locals. *)
Theorem C66_two_given_refuted : forall s rcvr a b, self_contained s ->
  (parameters s = 0 -> 2 <= length (sc_locals s) ->
     ast_runs_after s rcvr [a; b] [] [(Local 0, a); (Local 1, b)] /\
     bc_runs_after s rcvr [a; b] [] [(Local 0, a); (Local 1, b)]) /\
  (parameters s = 1 -> 1 <= length (sc_locals s) ->
     ast_runs_after s rcvr [a; b] [a] [(Local 0, b)] /\
     bc_runs_after s rcvr [a; b] [a] [(Local 0, b)]).
Proof.
  intros s rcvr a b SC. pose proof (contained_inner s SC) as W.
  destruct (wants_inner_false _ W) as [Na Nl].
  assert (Fl : forall l, num true l = 0 -> forall i, i < length l -> nth_error l i = Some false).
  { intros l Z i H. rewrite (nth_error_nth' _ false) by exact H. destruct (nth i l false) eqn:E; [|reflexivity].
    exfalso. assert (N : nth_error l i = Some true) by (rewrite (nth_error_nth' _ false) by exact H; congruence).
    pose proof (num_firstn_lt _ _ _ N). lia. }
  assert (Nf : forall l i, num true l = 0 -> i < length l -> num false (firstn i l) = i).
  { intros l i Z H. rewrite num_false_all, firstn_length; [lia|].
    clear H. revert i. induction l as [|f l IH]; intros [|i]; try reflexivity.
    cbn [firstn]. rewrite num_cons in *. destruct (eqb f true); [lia|]. rewrite IH; [reflexivity|lia]. }
  destruct (prepare_spec s) as (HA & SF & SI & _ & _ & _ & PL).
  unfold ast_runs_after, bc_runs_after. cbn [ast_perform bc_perform ast_enter bc_enter].
  unfold ast_create_frame_3, bc_create_frame_3. rewrite SF, SI, W.
  rewrite (num_false_all _ Na), (num_false_all _ Nl) in *. unfold parameters in *.
  split; intros P L.
  - assert (F : frame_of s rcvr [] = CInner None :: CObj rcvr :: repeat (CObj VNil) (length (sc_locals s))).
    { unfold frame_of. rewrite W, (num_false_all _ Nl). destruct (sc_args s); [reflexivity|discriminate]. }
    destruct (enter_right s rcvr [] (eq_sym P)) as [A B].
    pose proof (PL 0 _ (Fl _ Nl 0 ltac:(lia))) as P0. pose proof (PL 1 _ (Fl _ Nl 1 ltac:(lia))) as P1.
    rewrite Nf, (num_false_all _ Na), P in P0, P1 by (assumption || lia). cbn [Nat.add] in P0, P1.
    rewrite P.
    destruct (length (sc_locals s)) as [|[|n]] eqn:E; try lia.
    split; (split; [reflexivity|]); exists (frame_of s rcvr []);
      exists (CInner None :: CObj rcvr :: CObj a :: CObj b :: repeat (CObj VNil) n);
      (split; [reflexivity|]); (split; [assumption|]); rewrite F;
      cbn [assign_all ast_place place]; rewrite P0, P1; reflexivity.
  - assert (F : frame_of s rcvr [a] = CInner None :: CObj rcvr :: CObj a :: repeat (CObj VNil) (length (sc_locals s))).
    { unfold frame_of. rewrite W, (num_false_all _ Nl). destruct (sc_args s) as [|f [|]]; try discriminate.
      rewrite num_cons in Na. destruct f; [discriminate|]. reflexivity. }
    destruct (enter_right s rcvr [a] (eq_sym P)) as [A B].
    pose proof (PL 0 _ (Fl _ Nl 0 ltac:(lia))) as P0.
    rewrite Nf, (num_false_all _ Na), P in P0 by (assumption || lia). cbn [Nat.add] in P0.
    rewrite P.
    destruct (length (sc_locals s)) as [|n] eqn:E; try lia.
    split; (split; [cbn; lia|]); exists (frame_of s rcvr [a]);
      exists (CInner None :: CObj rcvr :: CObj a :: CObj b :: repeat (CObj VNil) n);
      (split; [reflexivity|]); (split; [assumption|]); rewrite F;
      cbn [assign_all ast_place place]; rewrite P0; reflexivity.
Qed.
Print Assumptions C66_two_given_refuted.

(** Two arguments and more parameters: the body runs; in the AST interpreter the first two are the
    arguments, in the bytecode interpreter the first two that nested blocks use as the last two. *)
Theorem C66_two_of_many_refuted : forall s rcvr a b, 2 <= parameters s ->
  ast_runs_as s rcvr [a; b] (with_at 1 b (with_at 0 a (nils (parameters s)))) /\
  exists i j, first_like s (parameters s - 2) (fun _ => False) i /\ first_like s (parameters s - 1) (eq i) j /\
    bc_runs_as s rcvr [a; b] (with_at j b (with_at i a (nils (parameters s)))).
Proof.
  intros s rcvr a b P.
  assert (L : forall i j, length (with_at j b (with_at i a (nils (parameters s)))) = parameters s)
    by (intros i j; rewrite !with_at_length; apply repeat_length).
  split.
  - split; [apply L|]. eexists. split; [|apply (enter_right s rcvr _ (L 0 1))].
    cbn [ast_perform ast_enter]. destruct (prepare_spec s) as (-> & _).
    assert (exists x, nth_error (sc_args s) 0 = Some x) as [x N] by (apply nth_declared; unfold parameters in P; lia).
    assert (exists y, nth_error (sc_args s) 1 = Some y) as [y M] by (apply nth_declared; exact P).
    rewrite <- (two_frame s rcvr a b x y 0 1 N M); try lia; [|reflexivity|].
    + unfold ast_create_frame_3. rewrite (get_nth _ _ _ N), (get_nth _ _ _ M). reflexivity.
    + destruct (sc_args s) as [|x' t]; [discriminate|]. injection N as ->. cbn [firstn]. rewrite num_cons.
      cbn. destruct (eqb x y); reflexivity.
  - set (x := nth (parameters s - 2) (sc_args s) false). set (y := nth (parameters s - 1) (sc_args s) false).
    assert (N : nth_error (sc_args s) (parameters s - 2) = Some x)
      by (apply nth_error_nth'; unfold parameters in *; lia).
    assert (M : nth_error (sc_args s) (parameters s - 1) = Some y)
      by (apply nth_error_nth'; unfold parameters in *; lia).
    pose proof (num_firstn_lt _ _ _ N) as C. pose proof (num_firstn_lt _ _ _ M) as D.
    destruct (kth_flag x (sc_args s) 0 ltac:(lia)) as (i & Ni & Zi).
    assert (K : (if eqb x y then 1 else 0) < num y (sc_args s)).
    { destruct (eqb x y) eqn:E; [|lia]. apply eqb_prop in E. rewrite <- E in *.
      pose proof (num_firstn_mono x _ _ (parameters s - 1) N ltac:(lia)). lia. }
    destruct (kth_flag y (sc_args s) _ K) as (j & Nj & Zj).
    destruct (first_like_next s (parameters s - 1) i j y x ltac:(lia) eq_refl Ni Zi Nj Zj) as [Ne FL].
    exists i, j. split; [eapply first_like_first; eauto; lia|]. split; [exact FL|].
    split; [apply L|]. eexists. split; [|apply (enter_right s rcvr _ (L i j))].
    cbn [bc_perform bc_enter]. rewrite bc_access.
    rewrite <- (two_frame s rcvr a b x y i j Ni Nj Ne Zi Zj). unfold bc_create_frame_3.
    rewrite (get_nth _ 1 x), (get_nth _ 0 y); [reflexivity|..];
      unfold parameters in *; rewrite (nth_error_nth' _ false) by (rewrite rev_length; lia);
      rewrite List.rev_nth by lia; reflexivity.
Qed.
Print Assumptions C66_two_of_many_refuted.

(** The two interpreters then bind different parameters: with [:x :y | [ x ]. ... ] given one
    argument, x is the argument in one, y in the other. *)
Theorem C66_interpreters_refuted : exists s, parameters s = 2 /\
  forall rcvr a, a <> VNil ->
    ast_runs_as s rcvr [a] [a; VNil] /\ bc_runs_as s rcvr [a] [VNil; a] /\
    ast_perform s rcvr [a] <> bc_perform s rcvr [a].
Proof.
  exists {| sc_self := false; sc_args := [true; false]; sc_locals := []; sc_requires_context := false; sc_catches := false |}.
  split; [reflexivity|]. intros rcvr a N. split; [|split].
  - split; [reflexivity|]. eexists. split; [reflexivity|]. intros [] A; try discriminate; reflexivity.
  - split; [reflexivity|]. eexists. split; [reflexivity|]. intros e A.
    exact (bc_enter_spec {| sc_self := false; sc_args := [true; false]; sc_locals := [];
             sc_requires_context := false; sc_catches := false |} e rcvr [VNil; a] eq_refl A).
  - cbn. intros H. injection H as H. congruence.
Qed.
Print Assumptions C66_interpreters_refuted.

(** A block with three or more parameters has no class: it understands no message at all. *)
Theorem C66_block_class_partial : forall s,
  (parameters s <= 2 -> block_class s = Ok (S (parameters s))) /\
  (3 <= parameters s -> block_class s = Err IndexError).
Proof.
  intros s. unfold block_class, parameters.
  destruct (length (sc_args s)) as [|[|[|n]]]; split; intros; try lia; try reflexivity.
  destruct n; reflexivity.
Qed.
Print Assumptions C66_block_class_partial.

(** [:x | | t u | ... ] called with two arguments, and [:x :y :z | ... [ y ] ... ] with one. *)
Example C66_nonvacuous :
  let s := {| sc_self := false; sc_args := [false]; sc_locals := [false; false]; sc_requires_context := false; sc_catches := false |} in
  let m := {| sc_self := false; sc_args := [false; true; false]; sc_locals := []; sc_requires_context := false; sc_catches := false |} in
  self_contained s /\ parameters s = 1 /\
  bc_perform s (VObj 1) [VInt 7; VInt 8] = Ok [CInner None; CObj (VObj 1); CObj (VInt 7); CObj (VInt 8); CObj VNil] /\
  ~ self_contained m /\ parameters m = 3 /\
  bc_perform m (VObj 1) [VInt 7] = Ok [CInner (Some [VTrue; VObj 1; VNil]); CObj (VObj 1); CObj (VInt 7); CObj VNil] /\
  bc_perform m (VObj 1) [VInt 7; VInt 8] = Ok [CInner (Some [VTrue; VObj 1; VInt 7]); CObj (VObj 1); CObj (VInt 8); CObj VNil] /\
  ast_perform m (VObj 1) [VInt 7; VInt 8] = Ok [CInner (Some [VTrue; VObj 1; VInt 8]); CObj (VObj 1); CObj (VInt 7); CObj VNil].
Proof.
  cbv zeta. split.
  { split; [reflexivity|]. split; [reflexivity|]. intros [|i|i] D; cbn in *; [discriminate|..].
    - destruct i as [|i]; [discriminate|lia].
    - destruct i as [|[|i]]; [discriminate..|lia]. }
  split; [reflexivity|]. split; [reflexivity|]. split; [|repeat split; reflexivity].
  intros (_ & _ & U). apply (U (Arg 1)); [cbn; lia|reflexivity].
Qed.
