(** Trivial methods. *)
From Coq Require Import ZArith Bool String Ascii List Lia.
From Verif Require Import Base LexModel ParseModel BcModel BcInterp BcSpec BcTab BcCode BcEval BcRep BcRun BcNest BcTriv VmModel VmSpec VmBc VmTriv VmTrivRun.
Import ListNotations.
Open Scope nat_scope.
Open Scope list_scope.

(** C48.  A method the compiler takes for a trivial one: invoking the object the compiler puts
    in its place has the outcome of running its bytecodes in an activation, and so that of
    evaluating the body of the method.  For setters only with one or two arguments and if it is
    an argument that is stored; for globals only with at most two arguments and if the global
    is known or the receiver is not a block (see the refutations below).  Restrictions on sources as for C43. *)
Theorem C48_methods_partial : forall P n ce ps ls ss ret period m t mid args below s,
  forallb ok_src ss = true -> ok_ret ret = true -> in_layer t_self ls = None ->
  compile_method ce ps ls ss ret period = Ok m -> me_triv m = Some t ->
  args <> [] ->
  match t with
  | TGlob g _ => length args <= 3 /\ (assoc_glob g (s_globs (v_store s)) <> None \/ the_block (v_store s) (nth 0 args VNil) = None)
  | TFldW _ a => 1 <= a < length args /\ length args <= 3
  | _ => True
  end ->
  same_outcome (fun _ s => invoke_trivial P (call P n) t mid args None below s)
    (fun k s => activate false (fun fid => run_method (vm_machine P (call P n) (vm_nlr P (call P n)) mid fid) [] m k)
                  mid args None s) s /\
  same_outcome (fun _ s => invoke_trivial P (call P n) t mid args None below s)
    (fun k s => activate false (fun fid => eval_method (ce_fields ce) ss ret
                  (vm_machine P (call P n) (vm_nlr P (call P n)) mid fid) [Level [ls] (t_self :: ps)] k)
                  mid args None s) s.
Proof.
  intros P n ce ps ls ss ret period m t mid args below s H1 H2 H3 H4 Ht Ha Hp.
  destruct (compiled_triv ce _ _ _ _ _ _ _ _ H1 H2 H3 H4 Ht) as (C & A & body & Q & T1 & T2 & T3 & T4 & T5).
  assert (HA : same_outcome (fun _ s => invoke_trivial P (call P n) t mid args None below s)
    (fun k s => activate false (fun fid => run_method (vm_machine P (call P n) (vm_nlr P (call P n)) mid fid) [] m k)
                  mid args None s) s).
  { eapply triv_run; eauto; [apply call_answers|lia|].
    assert (Hr : receiver (v_frames (push_frame mid args None s)) (length (v_frames s)) = nth_error args 0).
    { unfold receiver. rewrite top_frame. reflexivity. }
    assert (Hh : exists r, nth_error args 0 = Some r /\ nth 0 args VNil = r) by (destruct args; [congruence|cbn; eauto]).
    destruct Hh as (r & Er & Er'). rewrite Er' in Hp.
    destruct t as [l|g k|i k|f a]; cbn [proper]; auto; subst k; unfold home_receiver; cbn [linked up]; rewrite Hr, Er.
    - destruct Hp as [Hq Hp]. split; [exact Hq|]. destruct Hp as [Hp|Hp]; [left; exact Hp|right; split; [exact Logic.I|]]. exists r. auto.
    - split; [exact Logic.I|discriminate]. }
  split; [exact HA|].
  assert (HB : same_outcome (fun k s => activate false (fun fid => run_method (vm_machine P (call P n) (vm_nlr P (call P n)) mid fid) [] m k) mid args None s)
    (fun k s => activate false (fun fid => eval_method (ce_fields ce) ss ret
                  (vm_machine P (call P n) (vm_nlr P (call P n)) mid fid) [Level [ls] (t_self :: ps)] k)
                  mid args None s) s).
  { apply (activate_same (fun k fid => run_method _ [] m k)
      (fun k fid => eval_method (ce_fields ce) ss ret (vm_machine P (call P n) (vm_nlr P (call P n)) mid fid) [Level [ls] (t_self :: ps)] k)).
    destruct (compiled ce (vm_machine P (call P n) (vm_nlr P (call P n)) mid (length (v_frames (push_frame mid args None s)) - 1))
      _ _ _ _ _ _ _ H1 H2 H3 H4 (machine_lawful _ _ _ _ _) (push_frame mid args None s)) as [B1 B2].
    split.
    - intros k Hk. destruct (B2 k Hk) as [K HK]. exists K. exact HK.
    - intros k Hk. destruct (B1 k Hk) as [K HK]. exists K. exact HK. }
  destruct HA as [A1 A2], HB as [B1 B2]. split; intros k Hk.
  - destruct (A1 k Hk) as [K HK]. cbn beta in HK. assert (Hn : activate false (fun fid => run_method (vm_machine P (call P n) (vm_nlr P (call P n)) mid fid) [] m K) mid args None s <> Hang).
    { rewrite (HK K) by auto. exact Hk. }
    destruct (B1 K Hn) as [K' HK']. exists K'. intros k' Hk'. rewrite (HK' k' Hk'). apply HK. auto.
  - destruct (B2 k Hk) as [K HK]. cbn beta in HK. assert (Hn : activate false (fun fid => run_method (vm_machine P (call P n) (vm_nlr P (call P n)) mid fid) [] m K) mid args None s <> Hang).
    { rewrite (HK K) by auto. exact Hk. }
    destruct (A2 K Hn) as [K' HK']. exists K'. intros k' Hk'. rewrite (HK' k' Hk'). apply HK. auto.
Qed.
Print Assumptions C48_methods_partial.

(** The same for the methods of block literals, at any depth, in an activation of a block whose
    context is [o]: a field is one of the receiver of the method around; an unknown global is
    reported to that receiver. *)
Theorem C48_blocks_partial : forall P n ce ps ls ss ret period m,
  forallb ok_src ss = true -> ok_ret ret = true -> in_layer t_self ls = None ->
  compile_method ce ps ls ss ret period = Ok m ->
  Forall (fun (compiled : list (list nat) * meth) => forall t, me_triv (snd compiled) = Some t ->
    forall mid args o below s, args <> [] ->
    proper t args (push_frame mid args (Some o) s) (length (v_frames s)) ->
    same_outcome (fun _ s => invoke_trivial P (call P n) t mid args (Some o) below s)
      (fun k s => activate false (fun fid => run_method (vm_machine P (call P n) (vm_nlr P (call P n)) mid fid)
                    (fst compiled) (snd compiled) k) mid args (Some o) s) s)
  (inside m []).
Proof.
  intros P n ce ps ls ss ret period m H1 H2 H3 H4.
  pose proof (compiled_inside ce _ _ _ _ _ _ _ H1 H2 H3 H4) as HF.
  induction HF as [|[chain b] [e rho] l l' Hx HF IH]; constructor; auto.
  destruct Hx as (C & A & E & Hi). cbn [fst snd] in *. intros t Ht mid args o below s Ha Hp.
  inversion Hi as [C' A' rho' label ps' ls' ss' ret' per out bytes lits locals loops Q mx tr body fin p I1 I2 I3 I4 I5 I6 I7 I8 I9 I10 I11]; subst.
  cbn [me_triv] in Ht. subst tr.
  assert (Hb : triv_code t (body ++ [IOp fin])).
  { destruct t as [lt|g k|i k|f a]; cbn [triv_ok triv_code] in *.
    - destruct I8 as (v & V1 & -> & ->). exists v. auto.
    - destruct I8 as (-> & -> & _). reflexivity.
    - destruct I8 as (-> & -> & _). left. reflexivity.
    - contradiction. }
  eapply triv_run; [apply call_answers|exact Ha|exists Q; exact I4| |exact Hb|reflexivity|exact Hp].
  cbn [me_max]. destruct p as [|p]; [|lia]. exfalso.
  destruct t as [lt|g k|i k|f a]; cbn [triv_ok] in I8; [destruct I8 as (v & _ & -> & ->)|destruct I8 as (-> & -> & _)|destruct I8 as (-> & -> & _)|contradiction];
    cbn in I9; discriminate.
Qed.
Print Assumptions C48_blocks_partial.

(** * What does not hold in general *)
Definition t_prog : prog :=
  Prog (fun _ _ _ => Some (CPrim 0)) (fun _ _ _ => None) (fun _ a st => (a, st)) (fun _ a => ARet (nth 0 a VNil))
       (fun _ _ _ _ _ => Hang) (fun _ => false) Ok Ok.
Definition t_cenv : cenv := {| ce_fields := [str "f"]; ce_known := fun _ => false |}.
Definition t_compile (ps : list text) (ss : list src) (ret : option src) : meth :=
  match compile_method t_cenv ps [] ss ret false with Ok m => m | Err _ => Meth 0 [] [] [] 0 [] 0 None end.
(** Object 0 has one field; object 1 is a block of activation 0, whose receiver is object 0. *)
Definition t_state : vm :=
  Vm (Store [OInst 0 [VInt 7]; OBlk 0 1 0] [] []) [Frame 0 [VObj 0] [] None true].
Definition t_body (m : meth) (outer : list (list nat)) (octx : option nat) (args : list value) (k : nat) (s : vm) : vout value :=
  activate false (fun fid => run_method (vm_machine t_prog (call t_prog 9) (vm_nlr t_prog (call t_prog 9)) 5 fid) outer m k) 5 args octx s.
Definition t_trivial (t : triv) (octx : option nat) (args : list value) (below : value) (s : vm) : vout value :=
  invoke_trivial t_prog (call t_prog 9) t 5 args octx below s.
Definition t_after (args : list value) (v : value) (s : vm) : vm :=
  Vm (Store [OInst 0 [v]; OBlk 0 1 0] [] []) (v_frames (push_frame 5 args None s)).
Definition t_differs (m : meth) (t : triv) (args : list value) (below : value) (s : vm) : Prop :=
  ~ same_outcome (fun _ s => t_trivial t None args below s) (fun k s => t_body m [] None args k s) s.
Lemma t_differ m t args below s o o' : t_trivial t None args below s = o -> t_body m [] None args 9 s = o' ->
  o' <> Hang -> o <> o' -> t_differs m t args below s.
Proof.
  intros E1 E2 Hh Ho [_ H]. destruct (H 9) as [K HK]; [rewrite E2; exact Hh|]. specialize (HK K ltac:(auto)). cbn beta in HK.
  congruence.
Qed.

(** [x = ( f := self )]: invoking it raises NotImplementedError. *)
Definition set_self : list src := [SAsgn [str "f"] (SVar t_self)].
Theorem C48_setter_unary_refuted :
  compile_method t_cenv [] [] set_self None false = Ok (t_compile [] set_self None) /\
  me_triv (t_compile [] set_self None) = Some (TFldW 0 0) /\
  t_trivial (TFldW 0 0) None [VObj 0] VNil t_state = raise NotImplementedErr (push_frame 5 [VObj 0] None t_state) /\
  t_body (t_compile [] set_self None) [] None [VObj 0] 9 t_state = Done (VObj 0) (t_after [VObj 0] (VObj 0) t_state) /\
  t_differs (t_compile [] set_self None) (TFldW 0 0) [VObj 0] VNil t_state.
Proof.
  split; [vm_compute; reflexivity|]. split; [vm_compute; reflexivity|]. split; [reflexivity|]. split; [vm_compute; reflexivity|].
  eapply t_differ; [vm_compute; reflexivity|vm_compute; reflexivity|discriminate|discriminate].
Qed.
Print Assumptions C48_setter_unary_refuted.
(** [x: y = ( f := self )]: invoking it stores the argument. *)
Theorem C48_setter_receiver_refuted :
  compile_method t_cenv [str "y"] [] set_self None false = Ok (t_compile [str "y"] set_self None) /\
  me_triv (t_compile [str "y"] set_self None) = Some (TFldW 0 0) /\
  t_trivial (TFldW 0 0) None [VObj 0; VInt 1] VNil t_state = Done (VObj 0) (t_after [VObj 0; VInt 1] (VInt 1) t_state) /\
  t_body (t_compile [str "y"] set_self None) [] None [VObj 0; VInt 1] 9 t_state =
    Done (VObj 0) (t_after [VObj 0; VInt 1] (VObj 0) t_state) /\
  t_differs (t_compile [str "y"] set_self None) (TFldW 0 0) [VObj 0; VInt 1] VNil t_state.
Proof.
  split; [vm_compute; reflexivity|]. split; [vm_compute; reflexivity|]. split; [reflexivity|]. split; [vm_compute; reflexivity|].
  eapply t_differ; [vm_compute; reflexivity|vm_compute; reflexivity|discriminate|discriminate].
Qed.
Print Assumptions C48_setter_receiver_refuted.
(** With three arguments and more, the argument before the right one is stored, whichever it
    is, and the receiver in place of the first. *)
Theorem C48_setter_many_refuted : forall P call f a r x y z rest below s v,
  1 <= a -> nth_error (r :: x :: y :: z :: rest) (a - 1) = Some v ->
  triv_invoke P call (TFldW f a) (r :: x :: y :: z :: rest) below s = bind (set_field r f v s) (fun _ s => Done r s).
Proof.
  intros P call f a r x y z rest below s v Ha Hn. cbn [triv_invoke]. unfold write_n.
  destruct a as [|a]; [lia|]. replace (S a - 1) with a in Hn by lia. cbn [nth_error]. rewrite Hn. reflexivity.
Qed.
Print Assumptions C48_setter_many_refuted.
Definition set_last : list src := [SAsgn [str "f"] (SVar (str "c"))].
Definition abc : list text := [str "a"; str "b"; str "c"].
(** [x: a y: b z: c = ( f := c )] *)
Theorem C48_setter_three_refuted :
  compile_method t_cenv abc [] set_last None false = Ok (t_compile abc set_last None) /\
  me_triv (t_compile abc set_last None) = Some (TFldW 0 3) /\
  t_trivial (TFldW 0 3) None [VObj 0; VInt 1; VInt 2; VInt 3] VNil t_state =
    Done (VObj 0) (t_after [VObj 0; VInt 1; VInt 2; VInt 3] (VInt 2) t_state) /\
  t_body (t_compile abc set_last None) [] None [VObj 0; VInt 1; VInt 2; VInt 3] 9 t_state =
    Done (VObj 0) (t_after [VObj 0; VInt 1; VInt 2; VInt 3] (VInt 3) t_state) /\
  t_differs (t_compile abc set_last None) (TFldW 0 3) [VObj 0; VInt 1; VInt 2; VInt 3] VNil t_state.
Proof.
  split; [vm_compute; reflexivity|]. split; [vm_compute; reflexivity|]. split; [vm_compute; reflexivity|]. split; [vm_compute; reflexivity|].
  eapply t_differ; [vm_compute; reflexivity|vm_compute; reflexivity|discriminate|discriminate].
Qed.
Print Assumptions C48_setter_three_refuted.
(** [x = ( ^ Unknown )] in the class of blocks: invoking it sends unknownGlobal: to the block,
    its bytecodes send it to the receiver of the method that created the block. *)
Definition ret_unknown : option src := Some (SVar (str "Unknown")).
Theorem C48_unknown_global_refuted :
  compile_method t_cenv [] [] [] ret_unknown false = Ok (t_compile [] [] ret_unknown) /\
  me_triv (t_compile [] [] ret_unknown) = Some (TGlob (str "Unknown") 0) /\
  t_trivial (TGlob (str "Unknown") 0) None [VObj 1] VNil t_state = Done (VObj 1) (push_frame 5 [VObj 1] None t_state) /\
  t_body (t_compile [] [] ret_unknown) [] None [VObj 1] 9 t_state = Done (VObj 0) (push_frame 5 [VObj 1] None t_state) /\
  t_differs (t_compile [] [] ret_unknown) (TGlob (str "Unknown") 0) [VObj 1] VNil t_state.
Proof.
  split; [vm_compute; reflexivity|]. split; [vm_compute; reflexivity|]. split; [vm_compute; reflexivity|]. split; [vm_compute; reflexivity|].
  eapply t_differ; [vm_compute; reflexivity|vm_compute; reflexivity|discriminate|discriminate].
Qed.
Print Assumptions C48_unknown_global_refuted.
(** With three arguments and more, a method that answers a global never answers: after the
    global has been read TypeError is raised. *)
Theorem C48_global_many_refuted : forall P n g k r x y z rest below s v s',
  triv_invoke P (call P n) (TGlob g k) (r :: x :: y :: z :: rest) below s <> Done v s' /\
  (forall w, assoc_glob g (s_globs (v_store s)) = Some w ->
     triv_invoke P (call P n) (TGlob g k) (r :: x :: y :: z :: rest) below s = raise TypeError s).
Proof.
  intros P n g k r x y z rest below s v s'. cbn [triv_invoke length Nat.leb]. unfold glob_n. split.
  - destruct (glob_1 P (call P n) g k r s); discriminate.
  - intros w H. unfold glob_1. rewrite H. reflexivity.
Qed.
Print Assumptions C48_global_many_refuted.
(** [x: a y: b z: c = ( ^ Known )] *)
Definition known_state : vm :=
  Vm (Store [OInst 0 [VInt 7]; OBlk 0 1 0] [(str "Known", VInt 5)] []) [Frame 0 [VObj 0] [] None true].
Definition ret_known : option src := Some (SVar (str "Known")).
Theorem C48_global_three_refuted :
  compile_method t_cenv abc [] [] ret_known false = Ok (t_compile abc [] ret_known) /\
  me_triv (t_compile abc [] ret_known) = Some (TGlob (str "Known") 0) /\
  t_body (t_compile abc [] ret_known) [] None [VObj 0; VInt 1; VInt 2; VInt 3] 9 known_state =
    Done (VInt 5) (push_frame 5 [VObj 0; VInt 1; VInt 2; VInt 3] None known_state) /\
  t_differs (t_compile abc [] ret_known) (TGlob (str "Known") 0) [VObj 0; VInt 1; VInt 2; VInt 3] VNil known_state.
Proof.
  split; [vm_compute; reflexivity|]. split; [vm_compute; reflexivity|]. split; [vm_compute; reflexivity|].
  eapply t_differ; [vm_compute; reflexivity|vm_compute; reflexivity|discriminate|discriminate].
Qed.
Print Assumptions C48_global_three_refuted.

(** * Examples *)
(** [x: a y: b = ( f := b )], [x = ( ^ f )], [x = ( ^ #foo )] and [x = ( ^ Unknown )]. *)
Example C48_nonvacuous :
  let m := t_compile [str "a"; str "b"] [SAsgn [str "f"] (SVar (str "b"))] None in
  compile_method t_cenv [str "a"; str "b"] [] [SAsgn [str "f"] (SVar (str "b"))] None false = Ok m /\
  me_triv m = Some (TFldW 0 2) /\
  t_trivial (TFldW 0 2) None [VObj 0; VInt 1; VInt 2] VNil t_state = Done (VObj 0) (t_after [VObj 0; VInt 1; VInt 2] (VInt 2) t_state) /\
  t_body m [] None [VObj 0; VInt 1; VInt 2] 9 t_state = Done (VObj 0) (t_after [VObj 0; VInt 1; VInt 2] (VInt 2) t_state) /\
  me_triv (t_compile [] [] (Some (SVar (str "f")))) = Some (TFld 0 0) /\
  t_trivial (TFld 0 0) None [VObj 0] VNil t_state = Done (VInt 7) (push_frame 5 [VObj 0] None t_state) /\
  me_triv (t_compile [] [] (Some (SLit (SL (LV (VInt 3)))))) = Some (TLit (LV (VInt 3))) /\
  t_trivial (TGlob (str "Unknown") 0) None [VObj 0] VNil t_state = Done (VObj 0) (push_frame 5 [VObj 0] None t_state).
Proof. cbv zeta. repeat (split; [vm_compute; reflexivity|]). vm_compute. reflexivity. Qed.
(** [x = ( self y: [ f ]. self y: [ Unknown ] )]: both blocks are trivial. *)
Definition two_blocks : list src :=
  [SSend false (SVar t_self) (str "y:") [SBlk 1 [] [] [SVar (str "f")] None false];
   SSend false (SVar t_self) (str "y:") [SBlk 2 [] [] [SVar (str "Unknown")] None false]].
Example C48_blocks_nonvacuous :
  compile_method t_cenv [] [] two_blocks None false = Ok (t_compile [] two_blocks None) /\
  map (fun x => (length (fst x), me_triv (snd x))) (inside (t_compile [] two_blocks None) []) =
    [(1, Some (TFld 0 1)); (1, Some (TGlob (str "Unknown") 1))] /\
  proper (TFld 0 1) [VObj 1] (push_frame 5 [VObj 1] (Some 0) t_state) 1 /\
  proper (TGlob (str "Unknown") 1) [VObj 1] (push_frame 5 [VObj 1] (Some 0) t_state) 1 /\
  t_trivial (TFld 0 1) (Some 0) [VObj 1] VNil t_state = Done (VInt 7) (push_frame 5 [VObj 1] (Some 0) t_state) /\
  t_trivial (TGlob (str "Unknown") 1) (Some 0) [VObj 1] VNil t_state = Done (VObj 0) (push_frame 5 [VObj 1] (Some 0) t_state).
Proof.
  split; [vm_compute; reflexivity|]. split; [vm_compute; reflexivity|].
  assert (L : linked (push_frame 5 [VObj 1] (Some 0) t_state) 1 1).
  { cbn [linked]. exists (Frame 5 [VObj 1] [] (Some 0) true), (VObj 1), 0, 1, 0. repeat split. auto. }
  split; [split; [exact L|vm_compute; discriminate]|].
  split; [split; [cbn; auto|right; split; [exact L|exists (VObj 0); split; reflexivity]]|].
  split; vm_compute; reflexivity.
Qed.
