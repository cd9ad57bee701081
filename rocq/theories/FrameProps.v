From Coq Require Import ZArith Bool List Lia Arith.
From Verif Require Import Base FrameModel FrameSpec FrameProofs.
Import ListNotations.
Local Open Scope nat_scope.

(** C40: distinct variables have distinct storage, inside the allocated frame (or Inner),
    never in the slots of the Inner pointer, of the on-stack marker or of the receiver; a
    variable used by a nested block lives in the Inner, any other in the frame.  For both
    interpreters ([place] is where bytecode finds a variable, [ast_place] where AST nodes
    do). *)
Theorem C40_slots_private : forall s x y,
  declared s x -> declared s y -> x <> y ->
  exists sx sy ax ay,
    place s x = Some sx /\ place s y = Some sy /\ sx <> sy /\
    ast_place s x = Some ax /\ ast_place s y = Some ay /\ ax <> ay /\
    (s_inner sx = true <-> used_by_nested_block s x) /\
    (s_idx sx = FRAME_AND_INNER_RCVR_IDX <-> x = Self) /\
    1 <= s_idx sx < (if s_inner sx then ly_size_inner (prepare_frame s)
                     else ly_size_frame (prepare_frame s)).
Proof.
  intros s x y Dx Dy N.
  destruct (place_spec s x Dx) as (sx & Px & Ux & Bx & Ix).
  destruct (place_spec s y Dy) as (sy & Py & _ & _ & _).
  assert (A : forall z sz, place s z = Some sz -> exists az, ast_place s z = Some az).
  { intros [|i|i] sz Hz; cbn [ast_place]; eauto. }
  destruct (A _ _ Px) as [ax Ax]. destruct (A _ _ Py) as [ay Ay].
  exists sx, sy, ax, ay. repeat (split; [assumption|]).
  split; [intros ->; apply N; eapply place_inj; eauto|].
  split; [assumption|]. split; [assumption|].
  split; [intros ->; apply N; eapply ast_place_inj; eauto|].
  split; [assumption|]. split; [exact Ix|]. exact Bx.
Qed.
Print Assumptions C40_slots_private.

(** C40: entering a method or block of the AST interpreter with any receiver and
    arguments, through any entry point for that number of arguments, followed by any
    assignments to arguments and locals: every variable reads the value assigned last, or
    else the argument passed in its position, or nil for a local. *)
Theorem C40_ast_variables : forall s e rcvr args l,
  length args = length (sc_args s) -> ast_accepts e (length args) ->
  Forall (fun p => declared s (fst p) /\ fst p <> Self) l ->
  exists f0 f,
    ast_enter e (prepare_frame s) rcvr args = Ok f0 /\
    assign_all (ast_place s) ast_write f0 l = Ok f /\
    forall x, declared s x ->
      exists sl v, ast_place s x = Some sl /\ latest rcvr args l x = Some v /\ ast_read f sl = Ok v.
Proof.
  intros s e rcvr args l L A F.
  exists (frame_of s rcvr args).
  destruct (assign_spec s rcvr args (ast_place s) (fun x => x <> Self) ast_write l L
              (ast_place_inj s)) as (f & E & _ & V); auto.
  - intros x D. destruct (place_spec s x D) as (sl & P & _ & B & _).
    destruct x; cbn [ast_place]; [|exists sl; split; [assumption|lia]..].
    exists {| s_inner := false; s_idx := FRAME_AND_INNER_RCVR_IDX |}.
    split; [reflexivity|]. cbn. unfold FRAME_AND_INNER_RCVR_IDX. lia.
  - intros [|i|i] D N; [congruence|reflexivity..].
  - intros [|i|i] sl v D P I; cbn [ast_place] in P;
      [|eapply frame_of_slot; eauto..].
    injection P as <-. injection I as ->. reflexivity.
  - exists f. split; [apply ast_enter_spec; assumption|]. split; [assumption|].
    intros x D.
    assert (Hp : exists sl, ast_place s x = Some sl).
    { destruct (place_spec s x D) as (sl & P & _). destruct x; cbn [ast_place]; eauto. }
    assert (Hv : exists v, latest rcvr args l x = Some v).
    { clear - D L. induction l as [|[y w] l IH]; cbn [latest].
      - destruct x; cbn [initially declared] in *; eauto. apply nth_declared. lia.
      - destruct (match x with Self => _ | _ => _ end); eauto. }
    destruct Hp as [sl P]. destruct Hv as [v Lv]. exists sl, v. repeat (split; [assumption|]).
    apply ast_read_slot. eapply V; eauto.
Qed.
Print Assumptions C40_ast_variables.

(** C40: the same for the bytecode interpreter, whose methods with more than two arguments
    take them from the caller's stack.  Operand bytes bound the number of variables. *)
Theorem C40_bc_variables : forall s e rcvr args l,
  length args = length (sc_args s) -> bc_accepts e (length args) ->
  length (sc_args s) + length (sc_locals s) <= 254 ->
  Forall (fun p => declared s (fst p)) l ->
  exists f0 f,
    bc_enter e (prepare_frame s) rcvr args = Ok f0 /\
    assign_all (place s) bc_write f0 l = Ok f /\
    forall x, declared s x ->
      exists sl v, place s x = Some sl /\ latest rcvr args l x = Some v /\ bc_read f sl = Ok v.
Proof.
  intros s e rcvr args l L A Few F.
  exists (frame_of s rcvr args).
  destruct (assign_spec s rcvr args (place s) (fun _ => True) bc_write l L
              (place_inj s)) as (f & E & _ & V); auto.
  - intros x D. destruct (place_spec s x D) as (sl & P & _ & B & _). exists sl. split; [assumption|lia].
  - intros x sl v D P I. eapply frame_of_slot; eauto.
  - intros f x sl v D P. apply bc_same_write. pose proof (place_bound s x sl D P). lia.
  - eapply Forall_impl; [|exact F]. intros; auto.
  - exists f. split; [apply bc_enter_spec; assumption|]. split; [assumption|].
    intros x D.
    destruct (place_spec s x D) as (sl & P & _).
    assert (Hv : exists v, latest rcvr args l x = Some v).
    { clear - D L. induction l as [|[y w] l IH]; cbn [latest].
      - destruct x; cbn [initially declared] in *; eauto. apply nth_declared. lia.
      - destruct (match x with Self => _ | _ => _ end); eauto. }
    destruct Hv as [v Lv]. exists sl, v. repeat (split; [assumption|]).
    rewrite bc_same_read by (pose proof (place_bound s x sl D P); lia).
    apply ast_read_slot. eapply V; eauto.
Qed.
Print Assumptions C40_bc_variables.

(** C40: what a nested block reads.  A variable used by a nested block is found in the
    Inner of its activation, which exists, under the same index the activation itself uses;
    the receiver is found there whenever the compiler allocated an Inner. *)
Theorem C40_nested_blocks_see_variables : forall s f x sl,
  shaped s f -> declared s x -> used_by_nested_block s x -> place s x = Some sl ->
  exists inner v, frame_inner f = Ok inner /\
    get_from_outer inner (s_idx sl) = Ok v /\ ast_read f sl = Ok v /\ s_inner sl = true.
Proof.
  intros s f x sl Sh D U P. destruct (slot_some s f x sl Sh D P) as [v V].
  destruct (place_spec s x D) as (sl' & E & Iu & _ & _). rewrite P in E. injection E as <-.
  apply Iu in U. pose proof (ast_read_slot _ _ _ V) as R.
  unfold slot_value in V. rewrite U in V.
  destruct (nth_error f 0) as [[|[i|]]|] eqn:E0; try discriminate.
  exists i, v. unfold frame_inner, get, FRAME_INNER_IDX. rewrite E0. cbn [bind].
  repeat split; auto. unfold get_from_outer.
  assert (Hl : s_idx sl < length i) by (apply nth_error_Some; congruence).
  apply Nat.ltb_lt in Hl. rewrite Hl. apply get_nth. assumption.
Qed.
Print Assumptions C40_nested_blocks_see_variables.

(** C40: what a nested block writes.  Assigning to such a variable through the block changes
    the Inner exactly as an assignment by the activation itself does: the activation then
    reads the new value, and every other variable is as before. *)
Theorem C40_nested_blocks_set_variables : forall s f x sl v,
  shaped s f -> declared s x -> used_by_nested_block s x -> place s x = Some sl ->
  exists inner inner' f', frame_inner f = Ok inner /\
    set_outer inner (s_idx sl) v = Ok inner' /\
    ast_write f sl v = Ok f' /\ frame_inner f' = Ok inner' /\ shaped s f' /\
    ast_read f' sl = Ok v /\ get_from_outer inner' (s_idx sl) = Ok v /\
    forall y sly, declared s y -> y <> x -> place s y = Some sly -> ast_read f' sly = ast_read f sly.
Proof.
  intros s f x sl v Sh D U P. destruct (slot_some s f x sl Sh D P) as [v0 V0].
  destruct (place_spec s x D) as (sl' & E & Iu & _ & _). rewrite P in E. injection E as <-.
  apply Iu in U. destruct (write_spec s f x sl v Sh D P) as (f' & W & Sh' & V' & O').
  pose proof W as W0. pose proof (ast_read_slot _ _ _ V') as R'.
  unfold ast_write in W. rewrite U in W. unfold write_inner in W.
  unfold slot_value in V0. rewrite U in V0.
  destruct (nth_error f 0) as [[|[i|]]|] eqn:E0; try discriminate.
  assert (Fi : frame_inner f = Ok i) by (unfold frame_inner, get, FRAME_INNER_IDX; rewrite E0; reflexivity).
  rewrite Fi in W. cbn [bind] in W.
  assert (Hl : s_idx sl < length i) by (apply nth_error_Some; congruence).
  destruct (put_ok i (s_idx sl) v Hl) as (i' & Pi & Li & Vi & Oi). rewrite Pi in W. cbn [bind] in W.
  unfold with_inner, FRAME_INNER_IDX in W.
  destruct (put_ok f 0 (CInner (Some i'))) as (f1 & Pf & Lf & Vf & Of).
  { destruct f; [discriminate|simpl; lia]. }
  rewrite Pf in W. injection W as ->.
  exists i, i', f'. split; [exact Fi|].
  split. { unfold set_outer. apply Nat.ltb_lt in Hl. rewrite Hl. exact Pi. }
  split; [exact W0|].
  split. { unfold frame_inner, get, FRAME_INNER_IDX. rewrite Vf. reflexivity. }
  split; [exact Sh'|]. split; [exact R'|].
  split. { unfold get_from_outer. rewrite Li. apply Nat.ltb_lt in Hl. rewrite Hl. apply get_nth. exact Vi. }
  intros y sly Dy Ny Py. destruct (slot_some s f y sly Sh Dy Py) as [w Vw].
  rewrite (ast_read_slot f sly w Vw). apply ast_read_slot. rewrite O'; auto.
  - intros ->. destruct (C40_slots_private s y x Dy D Ny) as (a & b & _ & _ & Ea & Eb & Nab & _). congruence.
  - destruct (place_spec s y Dy) as (sl2 & E2 & _ & B2 & _). rewrite Py in E2. injection E2 as <-. lia.
Qed.
Print Assumptions C40_nested_blocks_set_variables.

(** C40: the frames the previous theorems are about are those of both interpreters, after
    entry and after any assignments; and with an Inner, the receiver is in it. *)
Theorem C40_entered_frames_shaped : forall s e e' rcvr args,
  length args = length (sc_args s) -> ast_accepts e (length args) -> bc_accepts e' (length args) ->
  exists f, ast_enter e (prepare_frame s) rcvr args = Ok f /\
    bc_enter e' (prepare_frame s) rcvr args = Ok f /\ shaped s f /\
    (forall x sl v, declared s x -> place s x = Some sl ->
       exists f', ast_write f sl v = Ok f' /\ shaped s f') /\
    (0 < ly_size_inner (prepare_frame s) ->
       exists inner, frame_inner f = Ok inner /\ get_from_outer inner FRAME_AND_INNER_RCVR_IDX = Ok rcvr /\
         nth_error inner INNER_ON_STACK_IDX = Some VTrue).
Proof.
  intros s e e' rcvr args L A B. exists (frame_of s rcvr args).
  split; [apply ast_enter_spec; assumption|]. split; [apply bc_enter_spec; assumption|].
  split; [apply frame_of_shaped; assumption|]. split.
  - intros x sl v D P.
    destruct (write_spec s _ x sl v (frame_of_shaped s rcvr args L) D P) as (f' & E & Sh & _). eauto.
  - destruct (prepare_spec s) as (_ & _ & -> & _). unfold frame_of. destruct (wants_inner s); [|lia].
    intros _. eexists. repeat split.
Qed.
Print Assumptions C40_entered_frames_shaped.

(** C40: a variable of the activation [level] scopes out is read from the Inner of exactly
    that activation, for every depth of nesting. *)
Theorem C40_outer_reads : forall blocks rcvr inners level idx outer v,
  chain blocks rcvr inners ->
  0 < level -> nth_error inners (level - 1) = Some outer -> nth_error outer idx = Some v ->
  read_outer blocks rcvr level idx = Ok v.
Proof.
  intros blocks rcvr inners level idx outer v C Lv Ho Hv.
  destruct (chain_block_at _ _ _ _ _ C Ho) as (n & E & B).
  unfold read_outer. rewrite E. cbn [bind]. rewrite B. unfold get_from_outer.
  assert (Hl : idx < length outer) by (apply nth_error_Some; congruence).
  apply Nat.ltb_lt in Hl. rewrite Hl. apply get_nth. assumption.
Qed.
Print Assumptions C40_outer_reads.

(** C40: after a call with the arguments on the stack, the result replaces receiver and
    arguments and the rest of the caller's stack is unchanged. *)
Theorem C40_call_result_on_stack : forall below rcvr args above result,
  stack_pop_old_arguments_and_push_result
    (map Some below ++ Some rcvr :: map Some args ++ above)
    (Z.of_nat (length below + length args)) (S (length args)) result
  = Ok (map Some below ++ Some result :: repeat None (length args) ++ above, Z.of_nat (length below)).
Proof. intros. apply pop_old_spec. Qed.
Print Assumptions C40_call_result_on_stack.

(** A method with four arguments and three locals, some used by nested blocks. *)
Definition sample_scope : scope :=
  {| sc_self := true; sc_args := [true; false; true; false]; sc_locals := [false; true; false];
     sc_requires_context := false; sc_catches := false |}.

Example C40_nonvacuous_bc :
  bc_accepts (BcInvokeN [VNil] [VNil; VNil]) 4 /\
  match bc_enter (BcInvokeN [VNil] [VNil; VNil]) (prepare_frame sample_scope) (VObj 7)
          [VInt 1; VInt 2; VInt 3; VInt 4] with
  | Ok f =>
      map (fun x => match place sample_scope x with Some sl => bc_read f sl | None => Err KeyError end)
        [Self; Arg 0; Arg 1; Arg 2; Arg 3; Local 0; Local 1; Local 2]
      = [Ok (VObj 7); Ok (VInt 1); Ok (VInt 2); Ok (VInt 3); Ok (VInt 4); Ok VNil; Ok VNil; Ok VNil]
      /\ length f = 6 /\ match frame_inner f with Ok i => length i = 5 | _ => False end
  | Err _ => False
  end.
Proof. vm_compute. repeat split. Qed.

Example C40_nonvacuous_nested :
  let blocks n := match n with
                  | 1 => Some [VTrue; VObj 2; VInt 10]
                  | 2 => Some [VTrue; VObj 9; VInt 20; VInt 30]
                  | _ => None end in
  chain blocks (VObj 1) [[VTrue; VObj 2; VInt 10]; [VTrue; VObj 9; VInt 20; VInt 30]] /\
  read_outer blocks (VObj 1) 1 2 = Ok (VInt 10) /\ read_outer blocks (VObj 1) 2 3 = Ok (VInt 30).
Proof.
  split; [|split; reflexivity].
  eapply chain_block; [reflexivity|reflexivity|].
  eapply chain_block; [reflexivity|reflexivity|]. constructor.
Qed.

Example C40_nonvacuous_assign :
  Forall (fun p => declared sample_scope (fst p) /\ fst p <> Self)
    [(Arg 2, VInt 9); (Local 1, VInt 8); (Arg 2, VInt 5)] /\
  latest (VObj 7) [VInt 1; VInt 2; VInt 3; VInt 4]
    [(Arg 2, VInt 9); (Local 1, VInt 8); (Arg 2, VInt 5)] (Arg 2) = Some (VInt 9).
Proof. split; [repeat constructor; discriminate | reflexivity]. Qed.
