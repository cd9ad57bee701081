(** C63: a conditional send behaves like the message every time it is executed. *)
From Coq Require Import ZArith Bool String Ascii List.
From Verif Require BcEval.
From Verif Require Import Base LexModel ParseModel BcModel BcInterp CtlModel CondModel.
Import ListNotations.
Open Scope nat_scope.
Open Scope list_scope.

(** * What the messages do *)
Section Spec.
Context {S X : Type}.
(** true ifTrue: a, false ifFalse: a: [a], evaluated if it is a block; false ifTrue: a,
    true ifFalse: a: nil; ifTrue:ifFalse: the one or the other. *)
Definition value_of (a : carg S X) (s : S) : out S X value :=
  match a with ABlk run => run s | AVal v => Done v s end.
Definition bool_message (sel : text) (b : bool) (args : list (carg S X)) (s : S) : option (out S X value) :=
  match args with
  | [a] => if text_eqb sel (str "ifTrue:") then Some (if b then value_of a s else Done VNil s)
           else if text_eqb sel (str "ifFalse:") then Some (if b then Done VNil s else value_of a s)
           else None
  | [x; y] => if text_eqb sel (str "ifTrue:ifFalse:") then Some (if b then value_of x s else value_of y s) else None
  | _ => None
  end.
Definition bool_value (b : bool) : value := if b then VTrue else VFalse.
(** The primitives of True and False and False>>ifTrue: of the core library. *)
Definition answers_booleans (send : text -> value -> list (carg S X) -> S -> out S X value) : Prop :=
  forall sel b args s o, bool_message sel b args s = Some o -> send sel (bool_value b) args s = o.
(** The node at a send after it has been executed with these receivers and arguments. *)
Definition node_after (fail : exn -> X) send (sel : text) (h : list (value * list (carg S X) * S)) : cnode :=
  fold_left (fun n x => fst (exec_send fail send sel n (fst (fst x)) (snd (fst x)) (snd x))) h CUninit.
(** A send has the same number of arguments each time. *)
Definition fits (k : nat) (h : list (value * list (carg S X) * S)) : Prop := Forall (fun x => length (snd (fst x)) = k) h.
End Spec.

Section Proofs.
Context {S X : Type}.
Variable fail : exn -> X.
Variable send : text -> value -> list (carg S X) -> S -> out S X value.
Definition settled_as (sel : text) (first : option value) (k : nat) : cnode :=
  match first with
  | None => CUninit
  | Some r => if negb (is_bool r) then CSend
              else if (k =? 1) && text_eqb sel (str "ifTrue:") then CIf true
              else if (k =? 1) && text_eqb sel (str "ifFalse:") then CIf false
              else if (k =? 2) && text_eqb sel (str "ifTrue:ifFalse:") then CIfElse else CSend
  end.
Lemma specialize_as sel r args : @specialize S X sel r args = settled_as sel (Some r) (length args).
Proof.
  unfold specialize, settled_as. destruct args as [|a [|b [|c args]]]; cbn [length Nat.eqb andb]; destruct (is_bool r); cbn [negb andb]; reflexivity.
Qed.
Lemma node_fix sel n r args s : n <> CUninit -> fst (exec_send fail send sel n r args s) = n.
Proof. destruct n; cbn; congruence. Qed.
Lemma node_kept sel h : forall n, n <> CUninit ->
  fold_left (fun n x => fst (exec_send fail send sel n (fst (fst x)) (snd (fst x)) (snd x))) h n = n.
Proof.
  induction h as [|x h IH]; intros n Hn; cbn [fold_left]; auto. rewrite node_fix by auto. auto.
Qed.
Lemma settled_not sel r k : settled_as sel (Some r) k <> CUninit.
Proof. unfold settled_as. repeat match goal with |- context [if ?b then _ else _] => destruct b end; discriminate. Qed.
Lemma node_after_as sel h k : fits k h ->
  node_after fail send sel h = settled_as sel (option_map (fun x => fst (fst x)) (hd_error h)) k.
Proof.
  unfold node_after. destruct h as [|x h]; intros Hf; [reflexivity|]. inversion Hf; subst. cbn [fold_left hd_error option_map].
  assert (E : fst (exec_send fail send sel CUninit (fst (fst x)) (snd (fst x)) (snd x)) = settled_as sel (Some (fst (fst x))) (length (snd (fst x)))).
  { cbn. apply specialize_as. }
  rewrite E. apply node_kept. apply settled_not.
Qed.
Lemma settled_same sel r args : exec_send fail send sel CUninit r args = exec_send fail send sel (settled_as sel (Some r) (length args)) r args.
Proof. unfold exec_send. rewrite specialize_as. pose proof (settled_not sel r (length args)). destruct (settled_as sel (Some r) (length args)); congruence. Qed.
End Proofs.

(** The primitives of True and False (CtlModel) do what [bool_message] says. *)
Theorem C63_primitives : forall S X sel (args : list (carg S X)) s o,
  (bool_message sel true args s = Some o -> exists f, true_prim sel args = Some f /\ f s = o) /\
  (bool_message sel false args s = Some o -> sel <> str "ifTrue:" -> exists f, false_prim sel args = Some f /\ f s = o).
Proof.
  intros S X sel args s o.
  assert (E : forall k, text_eqb sel k = true -> sel = k) by (intros k; apply BcEval.text_eqb_eq).
  split; unfold bool_message; destruct args as [|a [|b [|c args]]]; try discriminate.
  - destruct (text_eqb sel (str "ifTrue:")) eqn:E1.
    { apply E in E1. subst sel. intros H. injection H as <-. eexists. split; [vm_compute; reflexivity|]. destruct a; reflexivity. }
    destruct (text_eqb sel (str "ifFalse:")) eqn:E2; [|discriminate].
    apply E in E2. subst sel. intros H. injection H as <-. eexists. split; [vm_compute; reflexivity|]. reflexivity.
  - destruct (text_eqb sel (str "ifTrue:ifFalse:")) eqn:E1; [|discriminate].
    apply E in E1. subst sel. intros H. injection H as <-. eexists. split; [vm_compute; reflexivity|]. destruct a; reflexivity.
  - destruct (text_eqb sel (str "ifTrue:")) eqn:E1.
    { apply E in E1. congruence. }
    destruct (text_eqb sel (str "ifFalse:")) eqn:E2; [|discriminate].
    apply E in E2. subst sel. intros H _. injection H as <-. eexists. split; [vm_compute; reflexivity|]. destruct a; reflexivity.
  - destruct (text_eqb sel (str "ifTrue:ifFalse:")) eqn:E1; [|discriminate].
    apply E in E1. subst sel. intros H _. injection H as <-. eexists. split; [vm_compute; reflexivity|]. destruct b; reflexivity.
Qed.
Print Assumptions C63_primitives.
(** The logic of True and False: [not] answers the other one; [and:] and [&&] answer the argument's
    value on true and false on false, [or:] and [||] the other way round.  The argument is
    evaluated only if it is the answer. *)
Theorem C63_logic : forall S X (b : bool) (a : carg S X) s,
  let prim := if b then true_prim else false_prim in
  let does sel args o := exists f, prim (str sel) args = Some f /\ f s = o in
  does "not"%string [] (Done (bool_value (negb b)) s) /\
  does "and:"%string [a] (if b then value_of a s else Done VFalse s) /\
  does "&&"%string [a] (if b then value_of a s else Done VFalse s) /\
  does "or:"%string [a] (if b then Done VTrue s else value_of a s) /\
  does "||"%string [a] (if b then Done VTrue s else value_of a s).
Proof.
  intros S X b a s prim does. unfold does, prim.
  destruct b; repeat split; eexists; (split; [vm_compute; reflexivity|]); destruct a; reflexivity.
Qed.
Print Assumptions C63_logic.
(** True and False have no other primitives. *)
Theorem C63_no_others : forall S X (b : bool) sel (args : list (carg S X)) f,
  (if b then true_prim else false_prim) sel args = Some f ->
  In (sel, length args) (map (fun p => (str (fst p), snd p))
    [("not", 0); ("and:", 1); ("&&", 1); ("or:", 1); ("||", 1); ("ifTrue:", 1); ("ifFalse:", 1); ("ifTrue:ifFalse:", 2)]%string).
Proof.
  intros S X b sel args f H.
  assert (E : forall k, text_eqb sel k = true -> sel = k) by (intros k; apply BcEval.text_eqb_eq).
  destruct b; unfold true_prim, false_prim in H; destruct args as [|x [|y [|z args]]]; try discriminate H; cbn [map fst snd length];
  repeat match type of H with (if text_eqb sel ?k then _ else _) = _ =>
    let e := fresh in destruct (text_eqb sel k) eqn:e; [apply E in e; subst sel; cbn [In]; tauto|] end; discriminate H.
Qed.
Print Assumptions C63_no_others.
(** C63.  Whatever the send has been executed with before: with a Boolean receiver it does what
    the message does. *)
Theorem C63_boolean_receiver : forall S X (fail : exn -> X) send sel (h : list (value * list (carg S X) * S)) b args s o,
  answers_booleans send -> fits (length args) h ->
  bool_message sel b args s = Some o ->
  snd (exec_send fail send sel (node_after fail send sel h) (bool_value b) args s) = o.
Proof.
  intros S X fail send sel h b args s o Ha Hf Hm. rewrite (node_after_as fail send sel h _ Hf).
  assert (G : forall r, snd (exec_send fail send sel (settled_as sel (Some r) (length args)) (bool_value b) args s) = o).
  { intros r. pose proof (Ha sel b args s o Hm) as Hs. unfold exec_send. pose proof (settled_not sel r (length args)) as Hn.
    unfold settled_as in *. destruct (is_bool r); cbn [negb snd] in *; [|exact Hs].
    unfold bool_message in Hm. destruct args as [|a [|c [|d args]]]; try discriminate; cbn [length Nat.eqb andb].
    - destruct (text_eqb sel (str "ifTrue:")); [injection Hm as <-; destruct b; reflexivity|].
      destruct (text_eqb sel (str "ifFalse:")); [injection Hm as <-; destruct b; reflexivity|discriminate].
    - destruct (text_eqb sel (str "ifTrue:ifFalse:")); [injection Hm as <-; destruct b; reflexivity|discriminate]. }
  destruct (hd_error h) as [x|]; cbn [option_map].
  - apply G.
  - unfold settled_as. rewrite settled_same. apply G.
Qed.
Print Assumptions C63_boolean_receiver.
(** With any other receiver it is sent as a message if the first receiver was not a Boolean ... *)
Theorem C63_other_receiver_partial : forall S X (fail : exn -> X) send sel (h : list (value * list (carg S X) * S)) r args s,
  fits (length args) h -> is_bool r = false ->
  match h with [] => True | (first, _, _) :: _ => is_bool first = false end ->
  snd (exec_send fail send sel (node_after fail send sel h) r args s) = send sel r args s.
Proof.
  intros S X fail send sel h r args s Hf Hr Hh. rewrite (node_after_as fail send sel h _ Hf).
  destruct h as [|[[first a0] s0] h]; cbn [hd_error option_map fst].
  - unfold settled_as. rewrite settled_same. unfold settled_as. rewrite Hr. reflexivity.
  - unfold settled_as. rewrite Hh. reflexivity.
Qed.
Print Assumptions C63_other_receiver_partial.
(** ... and if the first receiver was a Boolean it always fails, whatever the receiver
    understands. *)
Theorem C63_other_receiver_fails : forall S X (fail : exn -> X) send sel (h : list (value * list (carg S X) * S)) b first_args s0 r args s,
  fits (length args) ((bool_value b, first_args, s0) :: h) -> is_bool r = false ->
  (exists o, bool_message sel b args s = Some o) ->
  snd (exec_send fail send sel (node_after fail send sel ((bool_value b, first_args, s0) :: h)) r args s) = Abrupt (fail AssertionError) s.
Proof.
  intros S X fail send sel h b fa s0 r args s Hf Hr [o Hm]. rewrite (node_after_as fail send sel _ _ Hf). cbn [hd_error option_map fst].
  assert (Hb : is_bool (bool_value b) = true) by (destruct b; reflexivity).
  unfold settled_as. rewrite Hb. cbn [negb]. unfold bool_message in Hm.
  destruct args as [|a [|c [|d args]]]; try discriminate; cbn [length Nat.eqb andb].
  - destruct (text_eqb sel (str "ifTrue:")); [cbn; unfold do_if; destruct r; try discriminate; reflexivity|].
    destruct (text_eqb sel (str "ifFalse:")); [cbn; unfold do_if; destruct r; try discriminate; reflexivity|discriminate].
  - destruct (text_eqb sel (str "ifTrue:ifFalse:")); [cbn; unfold do_if_else; destruct r; try discriminate; reflexivity|discriminate].
Qed.
Print Assumptions C63_other_receiver_fails.
(** So a send that is a message the first time can be an error the second time: [x ifTrue: y]
    for receiver true and then for an object that understands ifTrue:. *)
Theorem C63_other_receiver_refuted : exists (send : text -> value -> list (carg unit exn) -> unit -> out unit exn value) sel r args,
  answers_booleans send /\ send sel r args tt = Done (VInt 5) tt /\
  snd (exec_send (fun e => e) send sel (node_after (fun e => e) send sel []) r args tt) = Done (VInt 5) tt /\
  snd (exec_send (fun e => e) send sel (node_after (fun e => e) send sel [(VTrue, args, tt)]) r args tt) = Abrupt AssertionError tt.
Proof.
  exists (fun sel r args s => match r with
            | VTrue => match bool_message sel true args s with Some o => o | None => Stuck end
            | VFalse => match bool_message sel false args s with Some o => o | None => Stuck end
            | _ => Done (VInt 5) s end), (str "ifTrue:"), (VObj 0), [AVal (VInt 1)].
  split; [|repeat split; vm_compute; reflexivity]. intros sel b args s o H. destruct b; cbn [bool_value]; rewrite H; reflexivity.
Qed.
Print Assumptions C63_other_receiver_refuted.
(** [b ifTrue: [ ... ]] with the block in a variable, executed with true, false and true. *)
Example C63_nonvacuous :
  let run : nat -> out nat exn value := fun s => Done (VInt 7) (S s) in
  let send : text -> value -> list (carg nat exn) -> nat -> out nat exn value := fun _ _ _ _ => Stuck in
  let h := [(VTrue, [ABlk run], 0); (VFalse, [ABlk run], 1)] in
  fits 1 h /\ bool_message (str "ifTrue:") true [ABlk run] 4 = Some (Done (VInt 7) 5) /\
  snd (exec_send (fun e => e) send (str "ifTrue:") (node_after (fun e => e) send (str "ifTrue:") h) VTrue [ABlk run] 4) = Done (VInt 7) 5 /\
  snd (exec_send (fun e => e) send (str "ifTrue:") (node_after (fun e => e) send (str "ifTrue:") h) VFalse [ABlk run] 4) = Done VNil 4.
Proof. cbv zeta. split; [repeat constructor|]. repeat split; vm_compute; reflexivity. Qed.
