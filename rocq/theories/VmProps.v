(** Returns out of blocks. *)
From Coq Require Import ZArith Bool String Ascii List Lia.
From Verif Require Import Base LexModel ParseModel BcModel BcInterp BcSpec BcTab VmModel VmSpec VmRel VmInv VmNlr.
Import ListNotations.
Open Scope nat_scope.
Open Scope list_scope.

(** C47.  The run time, which looks at the marks of activations, raises exceptions and
    catches them in the methods marked by the compiler, does what the stack of running
    activations prescribes: [^] in a block makes the home activation answer if it is running,
    abandoning the activations above it, and sends escapedBlock: otherwise; for any depth of
    calls and blocks.  The full statement says that escapedBlock: goes to the receiver of the
    home activation; it goes to [self_of] it, see below. *)
Theorem C47_returns_partial : forall M P, ok_prog M P ->
  forall n c args st, no_blocks st ->
  seen (call P n c args (Vm st [])) = seen (spec P n c args (Vm st [])).
Proof.
  intros M P HP n c args st Hst.
  destruct (invoke_rel2 M P HP n [] c None args (Vm st []) (inv_start M P st Hst) I) as [[E1 E2]|R].
  - unfold call, spec. rewrite E1. change (er_vm (Vm st [])) with (Vm st []) in E2. cbn [ids map] in E2. rewrite E2. reflexivity.
  - unfold call, spec. cbn [ids map] in R. change (er_vm (Vm st [])) with (Vm st []) in R.
    destruct R as [v s1 s2 [-> _]|v s1 s2 [-> _]|x1 x2 s1 s2 [<- Hx]|]; auto.
    destruct x1 as [h v|e]; [|cbn; rewrite Hx; auto]. destruct Hx as (_ & [] & _).
Qed.
Print Assumptions C47_returns_partial.
(** No return gets out of the program: each finds its home activation. *)
Theorem C47_no_stray : forall M P, ok_prog M P ->
  forall n c args st, no_blocks st -> forall h v s, call P n c args (Vm st []) <> Abrupt (XRet h v) s.
Proof.
  intros M P HP n c args st Hst h v s E.
  destruct (invoke_rel2 M P HP n [] c None args (Vm st []) (inv_start M P st Hst) I) as [[E1 E2]|R].
  - unfold call in E. congruence.
  - unfold call in E. rewrite E in R. inversion R as [| |x1 x2 s1 s2 [<- Hx]|]; subst. destruct Hx as (_ & [] & _).
Qed.
Print Assumptions C47_no_stray.
(** escapedBlock: goes to the receiver of the home activation if that is not a block. *)
Theorem C47_escaped_partial : forall P call stk fid v s r,
  ~ In (home_of s fid) stk ->
  receiver (v_frames s) (home_of s fid) = Some r -> the_block (v_store s) r = None ->
  forall blk, receiver (v_frames s) fid = Some blk ->
  do_return P call stk fid v s = vm_send2 P call t_escaped r blk s.
Proof.
  intros P call stk fid v s r Hn Hr Hb blk Eb. unfold do_return.
  destruct (existsb (Nat.eqb (home_of s fid)) stk) eqn:E.
  { apply existsb_exists in E. destruct E as (x & Hx & E). apply Nat.eqb_eq in E. subst x. contradiction. }
  rewrite Hr, Eb. destruct (length (v_frames s)); cbn [self_of]; rewrite Hb; reflexivity.
Qed.
Print Assumptions C47_escaped_partial.

(** * Examples *)
Definition var (s : string) : src := SVar (str s).
Definition msg (r : src) (sel : string) (args : list src) : src := SSend false r (str sel) args.
Definition num (z : Z) : src := SLit (SL (LV (VInt z))).
Definition blk (l : nat) (ss : list src) (ret : option src) : src := SBlk l [] [] ss ret false.
(** [rec: b = ( b ifNil: [ self rec: [ ^ 1 ]. ^ 2 ]. b value. ^ 3 )] *)
Definition m_rec : msrc := Msrc [] [str "b"] []
  [msg (var "b") "ifNil:" [blk 1 [msg (var "self") "rec:" [blk 2 [] (Some (num 1))]] (Some (num 2))];
   msg (var "b") "value" []] (Some (num 3)).
(** [make = ( ^ [ ^ 7 ] )], [escaped = ( ^ self make value )], [escapedBlock: b = ( ^ self )],
    [lost = ( ^ [ 1 ] make value )] *)
Definition m_make : msrc := Msrc [] [] [] [] (Some (blk 1 [] (Some (num 7)))).
Definition m_use : msrc := Msrc [] [] [] [] (Some (msg (msg (var "self") "make" []) "value" [])).
Definition m_self : msrc := Msrc [] [str "b"] [] [] (Some (var "self")).
Definition m_lost : msrc := Msrc [] [] [] [] (Some (msg (msg (blk 1 [num 1] None) "make" []) "value" [])).
Definition ex_methods (i : nat) : option msrc := nth_error [m_rec; m_make; m_use; m_self; m_lost] i.
Definition ex_find (sel : text) (r : value) (st : store) : option callee :=
  if text_eqb sel (str "rec:") then Some (CMeth 0) else if text_eqb sel (str "make") then Some (CMeth 1)
  else if text_eqb sel (str "escaped") then Some (CMeth 2) else if text_eqb sel t_escaped then Some (CMeth 3)
  else if text_eqb sel (str "lost") then Some (CMeth 4) else if text_eqb sel (str "value") then Some (CPrim 0) else None.
Definition ex_prog : prog := {|
  p_find := ex_find; p_super := fun _ _ _ => None; p_dnu := fun sel args st => (args, st);
  p_prim := fun _ args => match args with b :: r => AEval b r ARet | [] => AErr IndexError end;
  p_body := source_body ex_methods; p_catch := fun i => (i =? 0) || (i =? 1);
  p_inc := Ok; p_dec := Ok |}.
Definition ex_store : store := Store [OInst 0 []] [] [].
Lemma ex_prog_ok : ok_prog ex_methods ex_prog.
Proof.
  split; [reflexivity|]. split.
  - split; [|intros sel args st a m l o; cbn; tauto]. intros p args. cbn. destruct args; repeat constructor.
  - intros mid m E. 
    do 5 (destruct mid as [|mid]; [cbn [ex_methods nth_error] in E; assert (Em : m = _) by (symmetry; injection E; exact (fun e => e)); rewrite Em; clear E Em; split;
      [split; [vm_compute; reflexivity|split; [vm_compute; reflexivity|
         match goal with |- NoDup ?l => let l' := eval vm_compute in l in change l with l' end;
         repeat constructor; cbn [In]; intuition discriminate]]|
       first [reflexivity|vm_compute; discriminate]]|]).
    destruct mid; discriminate.
Qed.
(** [rec: nil] evaluates in a second activation of the same method a block of the first: the
    first answers.  An escaped [^] is reported to the receiver of the home activation. *)
Example C47_nonvacuous :
  ok_prog ex_methods ex_prog /\ no_blocks ex_store /\
  seen (call ex_prog 20 (CMeth 0) [VObj 0; VNil] (Vm ex_store [])) =
    Done (VInt 1) (Store [OInst 0 []; OBlk 0 2 0] [] []) /\
  seen (call ex_prog 20 (CMeth 2) [VObj 0] (Vm ex_store [])) =
    Done (VObj 0) (Store [OInst 0 []; OBlk 1 1 1] [] []).
Proof.
  split; [apply ex_prog_ok|]. split; [intros [|[|a]] m l o; cbn; discriminate|]. split; vm_compute; reflexivity.
Qed.
Lemma ex_escaped : forall n b s,
  call ex_prog (S n) (CMeth 3) [VObj 0; b] s = Done (VObj 0) (push_frame 3 [VObj 0; b] None s).
Proof.
  intros n b s. unfold call. cbn [call_at]. unfold activate.
  change (p_body ex_prog 3 None) with (source_body ex_methods 3 None). unfold source_body at 1.
  change (ex_methods 3) with (Some m_self). cbn iota.
  lazy -[length app nth_error Nat.sub call_at]. destruct s as [st fs].
  rewrite !nth_error_app2, !Nat.sub_diag by lia. reflexivity.
Qed.
(** If the receiver of the home activation is a block, escapedBlock: goes to somebody else:
    in [ [ 1 ] make value ] the receiver of make is the block [ 1 ] at address 1, but
    escapedBlock: is sent to the object at address 0, whose method made that block.
    (get_self_dynamically, bc/frame.py 188-200) *)
Theorem C47_block_receiver_refuted : exists M P c args st fin,
  ok_prog M P /\ no_blocks st /\
  call P 20 c args (Vm st []) = Done (VObj 0) fin /\
  (* escapedBlock: answers its receiver *)
  (forall b s, call P 20 (CMeth 3) [VObj 0; b] s = Done (VObj 0) (push_frame 3 [VObj 0; b] None s)) /\
  (* the [^] was evaluated in a block of activation 1, whose receiver is a block *)
  map f_outer (v_frames fin) = [None; None; Some 1; None] /\
  receiver (v_frames fin) 1 = Some (VObj 1) /\ the_block (v_store fin) (VObj 1) = Some (4, 1, 0) /\
  receiver (v_frames fin) 3 = Some (VObj 0).
Proof.
  exists ex_methods, ex_prog, (CMeth 4), [VObj 0], ex_store,
    (match call ex_prog 20 (CMeth 4) [VObj 0] (Vm ex_store []) with Done _ s => s | _ => Vm ex_store [] end).
  split; [apply ex_prog_ok|]. split; [intros [|[|a]] m l o; cbn; discriminate|].
  split; [vm_compute; reflexivity|]. split; [|vm_compute; repeat split].
  apply (ex_escaped 19).
Qed.
Print Assumptions C47_block_receiver_refuted.
