(** C47 and C49 for whole programs run by the AST interpreter. *)
From Coq Require Import ZArith Bool String Ascii List Lia.
From Verif Require Import Base LexModel ParseModel BcModel BcInterp BcSpec BcTab VmModel VmSpec VmRel VmInv VmNlr VmCode VmProps VmBcProps
  AstModel AstSpec AstCatch AstVm AstVmNlr.
Import ListNotations.
Open Scope nat_scope.
Open Scope list_scope.

(** C47.  A program whose methods and blocks run as nodes, with the marks of contexts, the
    ReturnExceptions and the CatchNonLocalReturnNodes of the AST interpreter, does what the
    sources say when [^] in a block makes the home activation answer if it is running and
    otherwise sends escapedBlock: to the receiver of the home activation.  For all programs,
    invocations, arguments and states, however deep calls and blocks.  Restrictions on sources
    as for [C49_ast_method_partial]. *)
Theorem C47_ast_returns_partial : forall D A, ast_prog D A -> forall n c args st, no_blocks st ->
  seen (acall A n c args (Vm st [])) = seen (aspec (asources D A) n c args (Vm st [])).
Proof.
  intros D A HA n c args st Hst. unfold acall, aspec.
  destruct (ainvoke_rel2 D A HA n [] c None args (Vm st []) (inv_start (sources D) (home_prog D A) st Hst) I) as [[E1 E2]|R].
  - rewrite E1. change (er_vm (Vm st [])) with (Vm st []) in E2. cbn [ids map] in E2. rewrite E2. reflexivity.
  - cbn [ids map] in R. change (er_vm (Vm st [])) with (Vm st []) in R.
    destruct R as [v s1 s2 [-> _]|v s1 s2 [-> _]|x1 x2 s1 s2 [<- Hx]|]; auto.
    destruct x1 as [h v|e]; [|cbn; rewrite Hx; auto]. destruct Hx as (_ & [] & _).
Qed.
Print Assumptions C47_ast_returns_partial.
(** No return gets out of such a program. *)
Theorem C47_ast_no_stray : forall D A, ast_prog D A -> forall n c args st, no_blocks st ->
  forall h v s, acall A n c args (Vm st []) <> Abrupt (XRet h v) s.
Proof.
  intros D A HA n c args st Hst h v s E. unfold acall in E.
  destruct (ainvoke_rel2 D A HA n [] c None args (Vm st []) (inv_start (sources D) (home_prog D A) st Hst) I) as [[E1 E2]|R].
  - congruence.
  - rewrite E in R. inversion R as [| |x1 x2 s1 s2 [<- Hx]|]; subst. destruct Hx as (_ & [] & _).
Qed.
Print Assumptions C47_ast_no_stray.
(** The AST compiler wraps the body of each method in which a block, at any depth and inlined
    or not, ends with [^]. *)
Theorem C47_ast_marked : forall ce ps ls ss ret am,
  compile_ast ce ps ls ss ret = Ok am ->
  existsb rets ss = true \/ (exists e, ret = Some e /\ rets e = true) ->
  exists body, am = AMeth true body.
Proof.
  intros ce ps ls ss ret am Hc Hr. eapply compile_catches; [exact Hc|].
  destruct Hr as [-> |(e & -> & ->)]; [reflexivity|apply orb_true_r].
Qed.
Print Assumptions C47_ast_marked.

(** * Examples *)
(** The program of C47_nonvacuous, compiled to nodes. *)
Definition ex_ast : aprog :=
  AProg ex_prog (ast_body (ast_code ex_defs)) (ast_catches (ast_code ex_defs)) (fun _ _ => VNil).
Lemma ex_ast_ok : ast_prog ex_defs ex_ast.
Proof.
  split; [reflexivity|]. split; [reflexivity|]. split; [apply ex_prog_ok|]. intros mid d E. unfold ex_defs in E.
  destruct (ex_methods mid) as [m|] eqn:Em; [|discriminate]. cbn [option_map] in E. inversion E; subst d; clear E. cbn [md_src md_env].
  split; [apply (proj2 (proj2 ex_prog_ok) mid m Em)|].
  assert (F : forall (Q : msrc -> Prop), Q m_rec -> Q m_make -> Q m_use -> Q m_self -> Q m_lost -> Q m).
  { intros Q. unfold ex_methods in Em. do 5 (destruct mid as [|mid]; [cbn [nth_error] in Em; inversion Em; subst; auto|]). destruct mid; discriminate. }
  apply (F (fun m => exists am, ast_of (Mdef m ex_cenv false) = Ok am /\ plain_method (Mdef m ex_cenv false) am)); clear;
    (match goal with |- exists x, ?c = Ok x /\ _ => let v := eval vm_compute in c in match v with Ok ?y => exists y end end;
     split; [vm_compute; reflexivity|]; split; [vm_compute; reflexivity|]; split; [vm_compute; reflexivity|]; split; [vm_compute; reflexivity|];
     split; [left; vm_compute; repeat constructor|]; split; [vm_compute; reflexivity|];
     match goal with |- forall p, In p ?l -> _ => assert (Hb : forallb (fun p => length (block_params (fst p)) <=? 2) l = true) by (vm_compute; reflexivity);
       rewrite forallb_forall in Hb; intros p Hp; apply Nat.leb_le; exact (Hb p Hp) end).
Qed.
Example C47_ast_nonvacuous :
  ast_prog ex_defs ex_ast /\ no_blocks ex_store /\
  seen (acall ex_ast 20 (CMeth 0) [VObj 0; VNil] (Vm ex_store [])) =
    Done (VInt 1) (Store [OInst 0 []; OBlk 0 2 0] [] []) /\
  seen (acall ex_ast 20 (CMeth 2) [VObj 0] (Vm ex_store [])) =
    Done (VObj 0) (Store [OInst 0 []; OBlk 1 1 1] [] []) /\
  ast_catches (ast_code ex_defs) 0 = true /\ ast_catches (ast_code ex_defs) 2 = false.
Proof.
  split; [apply ex_ast_ok|]. split; [intros [|[|a]] m l o; cbn; discriminate|]. repeat split; vm_compute; reflexivity.
Qed.
(** C49.  If the receiver of the home activation is a block, escapedBlock: goes to that block in
    the AST interpreter and to somebody else in the bytecode interpreter: of one program,
    [ [ 1 ] make value ] answers differently. *)
Theorem C49_escaped_receiver_refuted : exists D A P c args st,
  ast_prog D A /\ compiled_prog D P /\ no_blocks st /\
  p_find (ap_vm A) = p_find P /\ p_super (ap_vm A) = p_super P /\ p_prim (ap_vm A) = p_prim P /\
  seen (acall A 20 c args (Vm st [])) = Done (VObj 1) (Store [OInst 0 []; OBlk 4 1 0; OBlk 1 1 1] [] []) /\
  seen (call P 60 c args (Vm st [])) = Done (VObj 0) (Store [OInst 0 []; OBlk 4 1 0; OBlk 1 1 1] [] []).
Proof.
  exists ex_defs, ex_ast, ex_compiled, (CMeth 4), [VObj 0], ex_store.
  split; [apply ex_ast_ok|]. split; [apply ex_compiled_ok|]. split; [intros [|[|a]] m l o; cbn; discriminate|].
  repeat split; vm_compute; reflexivity.
Qed.
Print Assumptions C49_escaped_receiver_refuted.
