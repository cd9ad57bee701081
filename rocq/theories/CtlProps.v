(** Control structures evaluated in place and as messages. *)
From Coq Require Import ZArith Bool String Ascii List Lia.
From Verif Require Import Base LexModel ParseModel BcModel BcInterp BcSpec BcTab VmModel VmSpec VmCode VmBc VmTrivRun VmProps VmBcProps CtlModel CtlSpec CtlSim CtlRun CtlCall CtlLoop.
Import ListNotations.
Open Scope nat_scope.
Open Scope list_scope.

Lemma spec_ends M P : ok_prog M P -> forall n c args st, no_blocks st ->
  (forall v s, spec P n c args (Vm st []) <> Retn v s) /\ (forall h v s, spec P n c args (Vm st []) <> Abrupt (XRet h v) s).
Proof.
  intros HP n c args st Hst. pose proof (C47_returns_partial M P HP n c args st Hst) as Q. split.
  - intros v s E. rewrite E in Q. cbn [seen] in Q. destruct (call P n c args (Vm st [])) eqn:Ec; try discriminate.
    exact (call_at_answers P n c None args _ _ _ Ec).
  - intros h v s E. rewrite E in Q. cbn [seen] in Q. destruct (call P n c args (Vm st [])) eqn:Ec; try discriminate.
    cbn [seen] in Q. assert (x = XRet h v) by congruence. subst. exact (C47_no_stray M P HP n c args st Hst _ _ _ Ec).
Qed.
(** C45.  ifTrue:, ifFalse:, ifTrue:ifFalse:, ifFalse:ifTrue:, ifNil:, ifNotNil:,
    ifNil:ifNotNil:, ifNotNil:ifNil:, and:, or:, &&, ||, whileTrue: and whileFalse: with literal
    blocks, evaluated in place without activations for the blocks, have the effects and the
    answers they have as messages, each block evaluated in an activation of its own by the
    primitive of the receiver.  For all programs whose methods may be nested in blocks and
    control structures to any depth, all calls, all loops.  Not covered (the full statement is
    false there, see below): Booleans are expected as receivers and conditions and [^] goes to
    a method that is running, both expressed by [messages] not being [Stuck]; the blocks of loops
    declare no locals ([tidy_method]). *)
Theorem C45_source_partial : forall M P, ok_prog M P ->
  (forall mid m, M mid = Some m -> tidy_method m) -> blind_prog P ->
  forall n c args st, no_blocks st -> messages P M n c args (Vm st []) <> Stuck ->
  same_seen (spec P n c args (Vm st [])) (messages P M n c args (Vm st [])).
Proof.
  intros M P HP HT HB n c args st Hst Hs.
  destruct (spec_ends M P HP n c args st Hst) as [NR NX].
  pose proof (call_sim P M HP HT HB n [] [] c None None args [] (Vm st []) (Vm st []) (sim_start M st Hst)
                (Forall2_nil _) I) as H.
  change (R None (called M [] (Vm st []) (Vm st [])) (spec P n c args (Vm st [])) (messages P M n c args (Vm st []))) in H.
  inversion H as [o E1 E2|E1 E2|a W t1 t2 N E1 E2|v W t1 t2 N E1 E2|v W t1 t2 h x N Hx Ox Eh E1 E2|v W t1 t2 h x N Hx Ox E1 E2|e W t1 t2 N E1 E2];
    cbn [same_seen]; auto.
  - congruence.
  - split; auto. eapply sim_alike. apply (N 0).
  - symmetry in E1. destruct (NR _ _ E1).
  - discriminate.
  - symmetry in E1. destruct (NX _ _ _ E1).
  - split; auto. eapply sim_alike. apply (N 0).
Qed.
Print Assumptions C45_source_partial.
(** The same for compiled programs: a run with messages that ends is a run of the bytecodes,
    and the other way round. *)
Lemma seen_hang o : seen o <> Hang <-> o <> Hang.
Proof. destruct o; cbn; split; congruence. Qed.
Lemma same_seen_of o1 o1' o2 : seen o1 = seen o1' -> same_seen o1 o2 -> same_seen o1' o2.
Proof. destruct o1 as [| |[]| |], o1' as [| |[]| |], o2 as [| |[]| |]; cbn; try congruence; try tauto; intros E [H1 H2]; split; congruence. Qed.
Theorem C45_compiled_partial : forall D P, compiled_prog D P ->
  (forall mid d, D mid = Some d -> tidy_method (md_src d)) -> blind_prog P ->
  forall c args st, no_blocks st ->
  (forall n, messages P (sources D) n c args (Vm st []) <> Stuck ->
             messages P (sources D) n c args (Vm st []) <> Hang ->
   exists K, forall k, k >= K ->
   same_seen (call P k c args (Vm st [])) (messages P (sources D) n c args (Vm st []))) /\
  (forall k, call P k c args (Vm st []) <> Hang ->
   exists N, forall n, n >= N -> messages P (sources D) n c args (Vm st []) <> Stuck ->
   same_seen (call P k c args (Vm st [])) (messages P (sources D) n c args (Vm st []))).
Proof.
  intros D P HP HT HB c args st Hst.
  pose proof (from_source_ok D P HP) as HS.
  assert (HT' : forall mid m, sources D mid = Some m -> tidy_method m).
  { intros mid m. unfold sources. destruct (D mid) as [d|] eqn:E; cbn; [|discriminate]. intros E'. injection E'. intros <-. eauto. }
  assert (EM : forall n, messages (from_source D P) (sources D) n c args (Vm st []) = messages P (sources D) n c args (Vm st [])) by reflexivity.
  assert (HB' : blind_prog (from_source D P)) by exact HB.
  destruct (C47_compiled_partial D P HP c args st Hst) as [H1 H2].
  split.
  - intros n Hs Hh. pose proof (C45_source_partial _ _ HS HT' HB' n c args st Hst) as Q. rewrite EM in Q. specialize (Q Hs).
    destruct (H1 n) as [K HK].
    + apply seen_hang. intros E. rewrite E in Q. destruct (messages P (sources D) n c args (Vm st [])) as [| |[]| |]; cbn in Q; congruence.
    + exists K. intros k Hk. eapply same_seen_of; [|exact Q]. symmetry. apply HK. auto.
  - intros k Hk. destruct (H2 k) as [N HN]; [apply seen_hang; auto|]. exists N. intros n Hn Hs.
    eapply same_seen_of; [exact (HN n Hn)|]. rewrite <- EM in *. apply (C45_source_partial _ _ HS HT' HB'); auto.
Qed.
Print Assumptions C45_compiled_partial.

(** * Examples *)
Definition asg (x : string) (e : src) : src := SAsgn [str x] e.
Definition lblk (l : nat) (ls : list (string * nat)) (ss : list src) (ret : option src) : src :=
  SBlk l [] (map (fun p => (str (fst p), snd p)) ls) ss ret false.
Definition locals (ls : list (string * nat)) : list (text * nat) := map (fun p => (str (fst p), snd p)) ls.
(** [run: p = ( | go k b |
       go := true.
       [ go ] whileTrue: [ k ifNil: [ b := [ 5 ]. k := false ] ifNotNil: [ go := false ] ].
       (p and: [ | x | x := 8. b := [ x ]. k ifTrue: [ ^ 3 ]. p ])
         ifTrue: [ ^ b value ] ifFalse: [ ^ 4 ] )] *)
Definition m_run : msrc := Msrc [] [str "p"] (locals [("go", 0); ("k", 1); ("b", 2)]%string)
  [asg "go" (var "true");
   msg (blk 1 [var "go"] None) "whileTrue:"
     [blk 2 [msg (var "k") "ifNil:ifNotNil:"
        [blk 3 [asg "b" (blk 9 [num 5] None); asg "k" (var "false")] None;
         blk 4 [asg "go" (var "false")] None]] None];
   msg (msg (var "p") "and:" [lblk 5 [("x", 3)]%string [asg "x" (num 8); asg "b" (blk 10 [var "x"] None);
                                                        msg (var "k") "ifTrue:" [blk 6 [] (Some (num 3))]; var "p"] None])
     "ifTrue:ifFalse:" [blk 7 [] (Some (msg (var "b") "value" [])); blk 8 [] (Some (num 4))]] None.
(** Receivers that are not Booleans, loops with other conditions and with locals, [^] after the
    method has ended; each beside the same with a block that is not written in the message. *)
Definition m_int : msrc := Msrc [] [] [] [] (Some (msg (num 5) "ifTrue:" [blk 1 [num 1] None])).
Definition m_seven : msrc := Msrc [] [str "b"] [] [] (Some (num 7)).
Definition m_cond : msrc := Msrc [] [] [] [msg (blk 1 [var "nil"] None) "whileTrue:" [blk 2 [] (Some (num 1))]] (Some (num 2)).
Definition m_cond_msg : msrc := Msrc [] [] (locals [("c", 0)]%string)
  [asg "c" (blk 1 [var "nil"] None); msg (var "c") "whileTrue:" [blk 2 [] (Some (num 1))]] (Some (num 2)).
Definition loop_body : src := lblk 2 [("x", 2)]%string
  [msg (var "x") "ifNotNil:" [blk 3 [] (Some (num 1))]; asg "x" (num 5);
   msg (var "k") "ifNotNil:" [blk 4 [asg "go" (var "false")] None]; asg "k" (num 5)] None.
Definition m_loop : msrc := Msrc [] [] (locals [("go", 0); ("k", 1)]%string)
  [asg "go" (var "true"); msg (blk 1 [var "go"] None) "whileTrue:" [loop_body]] (Some (num 2)).
Definition m_loop_msg : msrc := Msrc [] [] (locals [("go", 0); ("k", 1); ("c", 3)]%string)
  [asg "go" (var "true"); asg "c" (blk 1 [var "go"] None); msg (var "c") "whileTrue:" [loop_body]] (Some (num 2)).
Definition m_late : msrc := Msrc [] [] [] [] (Some (blk 1 [msg (var "true") "ifTrue:" [blk 2 [] (Some (num 7))]; num 8] None)).
Definition m_late_msg : msrc := Msrc [] [] [] []
  (Some (lblk 1 [("c", 0)]%string [asg "c" (blk 2 [] (Some (num 7))); msg (var "true") "ifTrue:" [var "c"]; num 8] None)).
Definition m_call (sel : string) : msrc := Msrc [] [] [] [] (Some (msg (msg (var "self") sel []) "value" [])).
Definition m_nine : msrc := Msrc [] [str "b"] [] [] (Some (num 9)).
Definition ctl_methods (i : nat) : option msrc := nth_error
  [m_run; m_int; m_seven; m_cond; m_cond_msg; m_loop; m_loop_msg; m_late; m_late_msg; m_call "late"; m_call "lateMsg"; m_nine] i.
Definition ctl_find (sel : text) (r : value) (st : store) : option callee :=
  if text_eqb sel (str "value") then Some (CPrim 0) else if text_eqb sel (str "whileTrue:") then Some (CPrim 1)
  else if text_eqb sel (str "ifTrue:") then
    match r with VTrue => Some (CPrim 2) | VInt _ => Some (CMeth 2) | _ => None end
  else if text_eqb sel (str "late") then Some (CMeth 7) else if text_eqb sel (str "lateMsg") then Some (CMeth 8)
  else if text_eqb sel t_escaped then Some (CMeth 11) else None.
Definition ctl_prim (p : nat) (args : list value) : act :=
  match p, args with
  | 0, [b] => AEval b [] ARet
  | 1, [c; b] => AWhile c b true (ARet VNil)
  | 2, [_; b] => AEval b [] ARet
  | _, _ => AErr TypeError
  end.
Definition ctl_defs (i : nat) : option mdef := option_map (fun m => Mdef m ex_cenv false) (ctl_methods i).
Definition ctl_prog : prog :=
  Prog ctl_find (fun _ _ _ => None) (fun sel args st => (args, st)) ctl_prim (bc_body (code_at ctl_defs))
       (fun mid => match ctl_defs mid with Some d => catches d | None => false end) Ok Ok.
Definition ctl_store : store := Store [OInst 0 []] [(str "nil", VNil); (str "true", VTrue); (str "false", VFalse)] [].
Lemma ctl_each (Q : nat -> msrc -> Prop) : Q 0 m_run -> Q 1 m_int -> Q 2 m_seven -> Q 3 m_cond -> Q 4 m_cond_msg -> Q 5 m_loop ->
  Q 6 m_loop_msg -> Q 7 m_late -> Q 8 m_late_msg -> Q 9 (m_call "late") -> Q 10 (m_call "lateMsg") -> Q 11 m_nine ->
  forall mid d, ctl_defs mid = Some d -> exists m, d = Mdef m ex_cenv false /\ Q mid m.
Proof.
  intros. unfold ctl_defs, ctl_methods in *.
  do 12 (destruct mid as [|mid]; [match goal with E : option_map _ (nth_error _ _) = Some _ |- _ => cbn [nth_error option_map] in E; inversion E; subst end; eauto|]).
  destruct mid; discriminate.
Qed.
Ltac nodup_ex := match goal with |- NoDup ?l => let l' := eval vm_compute in l in change l with l' end;
  repeat constructor; cbn [In]; intuition discriminate.
Lemma ctl_ok : compiled_prog ctl_defs ctl_prog.
Proof.
  split; [reflexivity|]. split.
  { split; [|intros sel args st a m l o; cbn; tauto]. intros p args. unfold ctl_prog, p_prim, ctl_prim.
    destruct p as [|[|[|p]]], args as [|a [|b [|c args]]]; repeat constructor. }
  intros mid d E. split; [|split; [|split; [|split]]].
  - destruct (ctl_each (fun _ m => ok_method m)) with (mid := mid) (d := d) as (m & -> & H); auto;
      (split; [vm_compute; reflexivity|split; [vm_compute; reflexivity|nodup_ex]]).
  - destruct (ctl_each (fun _ m => in_layer t_self (ms_locals m) = None)) with (mid := mid) (d := d) as (m & -> & H); auto.
  - destruct (ctl_each (fun _ m => ms_fields m = [])) with (mid := mid) (d := d) as (m & -> & H); auto.
  - destruct (ctl_each (fun _ m => exists x, code_of (Mdef m ex_cenv false) = Ok x)) with (mid := mid) (d := d) as (m & -> & H); auto;
      match goal with |- exists x, ?c = Ok x => let v := eval vm_compute in c in match v with Ok ?y => exists y; vm_compute; reflexivity end end.
  - cbn [ctl_prog p_catch]. rewrite E. reflexivity.
Qed.
Lemma ctl_blind : blind_prog ctl_prog.
Proof.
  split; [|split; [|split]].
  - intros sel r st1 st2 _. reflexivity.
  - reflexivity.
  - intros sel args st1 st2 H. split; auto.
  - intros p args. unfold ctl_prog, p_prim, ctl_prim.
    destruct p as [|[|[|p]]], args as [|a [|b [|c args]]]; repeat constructor.
Qed.
Definition ends (o : vout value) : option value := match o with Done v _ => Some v | _ => None end.
(** The loop runs twice, the block made in the second operand of and: keeps the local declared
    there, and the [^] in the last blocks answers from the method. *)
Definition run_defs (i : nat) : option mdef := if i =? 0 then Some (Mdef m_run ex_cenv false) else None.
Definition run_prog : prog :=
  Prog ctl_find (fun _ _ _ => None) (fun sel args st => (args, st)) ctl_prim (bc_body (code_at run_defs))
       (fun mid => match run_defs mid with Some d => catches d | None => false end) Ok Ok.
Lemma run_ok : compiled_prog run_defs run_prog /\ (forall mid d, run_defs mid = Some d -> tidy_method (md_src d)).
Proof.
  assert (E0 : forall mid d, run_defs mid = Some d -> mid = 0 /\ d = Mdef m_run ex_cenv false).
  { intros [|mid] d E; [split; auto; unfold run_defs in E; cbn [Nat.eqb] in E; congruence|discriminate]. }
  split.
  - split; [reflexivity|]. split; [exact (proj1 (proj2 ctl_ok))|]. intros mid d E. destruct (E0 _ _ E) as [-> ->].
    exact (proj2 (proj2 ctl_ok) 0 _ eq_refl).
  - intros mid d E. destruct (E0 _ _ E) as [-> ->]. cbn [md_src]. split.
    + split; [nodup_ex|]. vm_compute. repeat constructor.
    + match goal with |- Forall _ ?l => let l' := eval vm_compute in l in change l with l' end.
      repeat constructor; vm_compute; auto.
Qed.
Example C45_nonvacuous :
  compiled_prog run_defs run_prog /\ (forall mid d, run_defs mid = Some d -> tidy_method (md_src d)) /\
  blind_prog run_prog /\ no_blocks ctl_store /\
  ends (messages run_prog (sources run_defs) 20 (CMeth 0) [VObj 0; VTrue] (Vm ctl_store [])) = Some (VInt 8) /\
  ends (messages run_prog (sources run_defs) 20 (CMeth 0) [VObj 0; VFalse] (Vm ctl_store [])) = Some (VInt 4) /\
  ends (call run_prog 200 (CMeth 0) [VObj 0; VTrue] (Vm ctl_store [])) = Some (VInt 8).
Proof.
  split; [apply run_ok|]. split; [apply run_ok|]. split; [exact ctl_blind|]. split; [intros [|[|a]] m l o; cbn; discriminate|].
  split; [vm_compute; reflexivity|]. split; vm_compute; reflexivity.
Qed.

(** * Where inlining can be seen *)
(** [ 5 ifTrue: [ 1 ] ] evaluates the block whatever Integer>>ifTrue: is: here it answers 7. *)
Theorem C45_receiver_refuted : exists D P, compiled_prog D P /\ no_blocks ctl_store /\
  option_map md_src (D 1) = Some (Msrc [] [] [] [] (Some (msg (num 5) "ifTrue:" [blk 1 [num 1] None]))) /\
  p_find P (str "ifTrue:") (VInt 5) ctl_store = Some (CMeth 2) /\
  (forall b, ends (call P 100 (CMeth 2) [VInt 5; b] (Vm ctl_store [])) = Some (VInt 7)) /\
  ends (call P 100 (CMeth 1) [VObj 0] (Vm ctl_store [])) = Some (VInt 1).
Proof.
  exists ctl_defs, ctl_prog. split; [apply ctl_ok|]. split; [intros [|[|a]] m l o; cbn; discriminate|].
  split; [reflexivity|]. split; [reflexivity|]. split; [intros b; vm_compute; reflexivity|vm_compute; reflexivity].
Qed.
Print Assumptions C45_receiver_refuted.
(** [ [ nil ] whileTrue: [ ^ 1 ]. ^ 2 ] answers 1, with the condition in a variable it answers 2:
    inlined, the loop goes on until false. *)
Theorem C45_condition_refuted : exists D P, compiled_prog D P /\ no_blocks ctl_store /\
  option_map md_src (D 3) = Some (Msrc [] [] [] [msg (blk 1 [var "nil"] None) "whileTrue:" [blk 2 [] (Some (num 1))]] (Some (num 2))) /\
  option_map md_src (D 4) = Some (Msrc [] [] (locals [("c", 0)]%string)
    [asg "c" (blk 1 [var "nil"] None); msg (var "c") "whileTrue:" [blk 2 [] (Some (num 1))]] (Some (num 2))) /\
  (forall c b, p_find P (str "whileTrue:") c ctl_store = Some (CPrim 1) /\ p_prim P 1 [c; b] = AWhile c b true (ARet VNil)) /\
  ends (call P 100 (CMeth 3) [VObj 0] (Vm ctl_store [])) = Some (VInt 1) /\
  ends (call P 100 (CMeth 4) [VObj 0] (Vm ctl_store [])) = Some (VInt 2).
Proof.
  exists ctl_defs, ctl_prog. split; [apply ctl_ok|]. split; [intros [|[|a]] m l o; cbn; discriminate|].
  split; [reflexivity|]. split; [reflexivity|]. split; [split; reflexivity|]. split; vm_compute; reflexivity.
Qed.
Print Assumptions C45_condition_refuted.
(** The locals of the block of a loop keep their values from one round to the next when it is
    inlined; as a message each round starts with nil. *)
Theorem C45_loop_locals_refuted : exists D P, compiled_prog D P /\ no_blocks ctl_store /\
  option_map md_src (D 5) = Some (Msrc [] [] (locals [("go", 0); ("k", 1)]%string)
    [asg "go" (var "true"); msg (blk 1 [var "go"] None) "whileTrue:" [loop_body]] (Some (num 2))) /\
  option_map md_src (D 6) = Some (Msrc [] [] (locals [("go", 0); ("k", 1); ("c", 3)]%string)
    [asg "go" (var "true"); asg "c" (blk 1 [var "go"] None); msg (var "c") "whileTrue:" [loop_body]] (Some (num 2))) /\
  ends (call P 200 (CMeth 5) [VObj 0] (Vm ctl_store [])) = Some (VInt 1) /\
  ends (call P 200 (CMeth 6) [VObj 0] (Vm ctl_store [])) = Some (VInt 2).
Proof.
  exists ctl_defs, ctl_prog. split; [apply ctl_ok|]. split; [intros [|[|a]] m l o; cbn; discriminate|].
  split; [reflexivity|]. split; [reflexivity|]. split; vm_compute; reflexivity.
Qed.
Print Assumptions C45_loop_locals_refuted.
(** [ true ifTrue: [ ^ 7 ]. 8 ] in a block of a method that has ended: escapedBlock: answers 9,
    and that is the answer of the block when ifTrue: is inlined; as a message it is the answer
    of ifTrue:, and the block goes on and answers 8. *)
Theorem C45_escaped_refuted : exists D P, compiled_prog D P /\ no_blocks ctl_store /\
  option_map md_src (D 7) = Some (Msrc [] [] [] []
    (Some (blk 1 [msg (var "true") "ifTrue:" [blk 2 [] (Some (num 7))]; num 8] None))) /\
  option_map md_src (D 8) = Some (Msrc [] [] [] []
    (Some (lblk 1 [("c", 0)]%string [asg "c" (blk 2 [] (Some (num 7))); msg (var "true") "ifTrue:" [var "c"]; num 8] None))) /\
  ends (call P 200 (CMeth 9) [VObj 0] (Vm ctl_store [])) = Some (VInt 9) /\
  ends (call P 200 (CMeth 10) [VObj 0] (Vm ctl_store [])) = Some (VInt 8).
Proof.
  exists ctl_defs, ctl_prog. split; [apply ctl_ok|]. split; [intros [|[|a]] m l o; cbn; discriminate|].
  split; [reflexivity|]. split; [reflexivity|]. split; vm_compute; reflexivity.
Qed.
Print Assumptions C45_escaped_refuted.

(** * The loop messages *)
(** whileTrue: and whileFalse: sent to a block answer nil once the condition has answered
    something else than true (false), having evaluated the body after each true (false). *)
Theorem C45_loop_message : forall D P, compiled_prog D P ->
  forall p (on : bool) c b s, p_prim P p [c; b] = AWhile c b on (ARet VNil) ->
  (exists m l o, the_block (v_store s) c = Some (m, l, o)) ->
  (exists m l o, the_block (v_store s) b = Some (m, l, o)) ->
  forall v s', (exists n, call P n (CPrim p) [c; b] s = Done v s') <->
    v = VNil /\ repeats P (if on then VTrue else VFalse) c b s s'.
Proof. exact loop_message. Qed.
Print Assumptions C45_loop_message.
(** Two rounds of the loop of method 6: five activations of blocks. *)
Example C45_loop_nonvacuous :
  let s := Vm (Store (s_objs ctl_store ++ [OBlk 6 1 0; OBlk 6 2 0]) (s_globs ctl_store) [])
              [Frame 6 [VObj 0] [(0, VTrue)] None true] in
  let c := VObj (length (s_objs ctl_store)) in let b := VObj (S (length (s_objs ctl_store))) in
  compiled_prog ctl_defs ctl_prog /\
  p_prim ctl_prog 1 [c; b] = AWhile c b true (ARet VNil) /\
  the_block (v_store s) c = Some (6, 1, 0) /\ the_block (v_store s) b = Some (6, 2, 0) /\
  exists s', repeats ctl_prog VTrue c b s s' /\ length (v_frames s') = 6.
Proof.
  cbv zeta. split; [apply ctl_ok|]. split; [reflexivity|]. split; [reflexivity|]. split; [reflexivity|].
  set (s := Vm _ _). set (c := VObj _). set (b := VObj (S _)).
  exists (match call ctl_prog 200 (CPrim 1) [c; b] s with Done _ s' => s' | _ => s end). split; [|vm_compute; reflexivity].
  eapply (proj1 (loop_message ctl_defs ctl_prog ctl_ok 1 true c b s eq_refl ltac:(repeat eexists) ltac:(repeat eexists) VNil _)).
  exists 200. vm_compute. reflexivity.
Qed.
