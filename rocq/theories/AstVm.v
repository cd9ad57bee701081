(** The run time of the AST interpreter: invoking methods and blocks, returns out of blocks and
    unknown globals.  som/vmobjects/method_ast.py (invoke_1/2/3/args), block_ast.py,
    som/interpreter/ast/nodes/return_non_local_node.py, contextual_node.py,
    global_read_node.py, som/interpreter/ast/frame.py, som/interpreter/send.py.
    Objects, activations, lookup, sends and primitives are those of VmModel.v: the two
    interpreters share them (dispatch.py, primitives/*.py).  Below, what they should do. *)
From Coq Require Import ZArith Bool String Ascii List Lia.
From Verif Require Import Base LexModel ParseModel BcModel BcInterp BcSpec BcTab VmModel VmSpec VmCode AstModel AstSpec.
Import ListNotations.
Open Scope nat_scope.
Open Scope list_scope.

(** A program: method lookup, doesNotUnderstand: and primitives as in [prog] (whose [p_body]
    and [p_catch] are not used); what bodies of methods and of the block literals in them do;
    which methods have a CatchNonLocalReturnNode; and the arrays made of the literal arrays of
    a method when it was parsed (compiler/ast/parser.py 500-507).  Simplification: equal
    literals of one method are one array. *)
Record aprog := AProg {
  ap_vm : prog;
  ap_body : nat -> option nat -> amachine vm stop -> nat -> vm -> vout value;
  ap_catch : nat -> bool;
  ap_arr : nat -> list slit -> value }.

Section Ops.
Variable A : aprog.
Notation P := (ap_vm A).
Variable call : callee -> list value -> vm -> vout value.

(** determine_outer_self (contextual_node.py 30-35): the receiver must be a block as often as
    the context level says *)
Fixpoint outer_self (st : store) (fs : list frame) (k : nat) (v : value) : option value :=
  match k with
  | O => Some v
  | S k => match the_block st v with
           | Some (_, _, o) => match receiver fs o with Some w => outer_self st fs k w | None => None end
           | None => None
           end
  end.
(** _CachedGlobalReadNode.execute (global_read_node.py 68-69).  The association was there when
    the method was compiled. *)
Definition ast_known (n : text) (s : vm) : vout value :=
  match assoc_glob n (s_globs (v_store s)) with
  | Some v => Done v s
  | None => raise AttributeError s
  end.
(** _UninitializedGlobalReadNode.execute (38-45): a global that is there now, or unknownGlobal:
    to the self at the context level of the node *)
Definition ast_unknown (fid k : nat) (n : text) (s : vm) : vout value :=
  match assoc_glob n (s_globs (v_store s)) with
  | Some v => Done v s
  | None =>
      match receiver (v_frames s) fid with
      | Some r => match outer_self (v_store s) (v_frames s) k r with
                  | Some self => vm_send2 P call t_unknown self (sym_value n) s
                  | None => raise AttributeError s
                  end
      | None => raise AttributeError s
      end
  end.
(** ReturnNonLocalNode.execute (return_non_local_node.py 41-49): the return is raised if the
    context [k] levels out is marked as on the stack, otherwise escapedBlock: is sent to the
    self there *)
Definition ast_nlr (fid k : nat) (v : value) (s : vm) : vout value :=
  at_level k fid s (fun h fr =>
  if f_live fr then Abrupt (XRet h v) s
  else match nth_error (f_args fr) 0, receiver (v_frames s) fid with
       | Some self, Some blk => vm_send2 P call t_escaped self blk s
       | _, _ => raise AttributeError s
       end).
(** What the nodes of activation [fid] of method [mid] ask for. *)
Definition ast_machine (nlr : nat -> nat -> value -> vm -> vout value) (mid fid : nat) : amachine vm stop := {|
  a_mach := {|
    m_send := vm_send P call; m_super := vm_super P call mid; m_glob := ast_known; m_blk := vm_blk fid;
    m_rd := vm_rd fid; m_wr := vm_wr fid; m_getf := vm_getf fid; m_setf := vm_setf fid;
    m_incf := vm_incf P fid; m_inc := vm_inc P; m_dec := vm_dec P; m_nlr := nlr fid |};
  a_glob := ast_unknown fid;
  a_super := fun sel s => match p_super P mid sel (v_store s) with Some _ => true | None => false end;
  a_arr := fun ls s => Done (ap_arr A mid ls) s;
  a_exn := XPy |}.
End Ops.

(** invoke_1/2/3/args (method_ast.py 122-166) and CatchNonLocalReturnNode.execute
    (return_non_local_node.py 76-87) are as [activate] of VmModel.  Simplifications: a Python
    exception on its way out of the VM does not clear marks; trivial methods have an
    activation, which nothing refers to. *)
Section Run.
Variable A : aprog.
Fixpoint acall_at (n : nat) (c : callee) (blk : option (nat * nat)) (args : list value) (s : vm)
  {struct n} : vout value :=
  match n with
  | O => Hang
  | S n =>
      let call c args s := acall_at n c None args s in
      let enter m l o args s := acall_at n (CMeth m) (Some (l, o)) args s in
      match c, blk with
      | CPrim p, _ => run_act (ap_vm A) call enter n (p_prim (ap_vm A) p args) s
      | CMeth m, None =>
          activate (ap_catch A m)
            (fun fid => ap_body A m None (ast_machine A call (ast_nlr A call) m fid) n)
            m args None s
      | CMeth m, Some (l, o) =>
          activate false
            (fun fid => ap_body A m (Some l) (ast_machine A call (ast_nlr A call) m fid) n)
            m args (Some o) s
      end
  end.
Definition acall (n : nat) (c : callee) (args : list value) (s : vm) : vout value :=
  acall_at n c None args s.
End Run.

(** * Compiled programs *)
(** compiler/ast/method_generation_context.py 22-47 *)
Definition ast_of (d : mdef) : res amethod :=
  let m := md_src d in compile_ast (md_env d) (ms_params m) (ms_locals m) (ms_body m) (ms_ret m).
Definition ast_code (D : nat -> option mdef) (mid : nat) : option amethod :=
  match D mid with
  | Some d => match ast_of d with Ok am => Some am | Err _ => None end
  | None => None
  end.
Definition node_label (nd : node) : nat :=
  match nd with NBlk _ l _ _ _ | NBlkT _ l _ _ => l | _ => 0 end.
(** What methods and the blocks in them do when their nodes are executed. *)
Definition ast_body (C : nat -> option amethod) (mid : nat) (blk : option nat) (μ : amachine vm stop)
  (n : nat) (s : vm) : vout value :=
  match C mid, blk with
  | Some am, None => run_ast μ am n s
  | Some am, Some l => match find (fun nd => node_label nd =? l) (blocks_of am) with
                       | Some nd => run_block μ nd n s
                       | None => Stuck
                       end
  | None, _ => Stuck
  end.
(** Is there a CatchNonLocalReturnNode?  (26-29) *)
Definition ast_catches (C : nat -> option amethod) (mid : nat) : bool :=
  match C mid with Some (AMeth c _) => c | _ => false end.

(** * What the programs mean *)
(** Bodies evaluated from their sources, by the rules of the AST interpreter ([ast_ops]). *)
Definition asource_body (D : nat -> option mdef) (mid : nat) (blk : option nat) (μ : amachine vm stop)
  (n : nat) (s : vm) : vout value :=
  match D mid, blk with
  | Some d, None => oeval_method (md_env d) (ast_ops μ) (ms_body (md_src d)) (ms_ret (md_src d)) (ms_env (md_src d)) n s
  | Some d, Some l => match block_of (md_src d) l with
                      | Some (b, rho) => oeval_closure (md_env d) (ast_ops μ) b rho n s
                      | None => Stuck
                      end
  | None, _ => Stuck
  end.
Section Spec.
Variable A : aprog.
(** [^ v] in activation [fid] while the activations [stk] are running: on with the return to
    the home activation if it is running, otherwise its receiver gets the message
    escapedBlock: with the block that was running, whatever the receiver is. *)
Definition areturn (call : callee -> list value -> vm -> vout value) (stk : list nat)
  (fid : nat) (v : value) (s : vm) : vout value :=
  let h := home_of s fid in
  if existsb (Nat.eqb h) stk then Abrupt (XRet h v) s
  else match receiver (v_frames s) h, receiver (v_frames s) fid with
       | Some self, Some blk => vm_send2 (ap_vm A) call t_escaped self blk s
       | _, _ => raise AttributeError s
       end.
(** As [acall_at], with the running activations [stk] at hand: no marks, no catching. *)
Fixpoint aspec_at (n : nat) (stk : list nat) (c : callee) (blk : option (nat * nat)) (args : list value)
  (s : vm) {struct n} : vout value :=
  match n with
  | O => Hang
  | S n =>
      let fid := length (v_frames s) in
      match c with
      | CPrim p =>
          run_act (ap_vm A) (fun c args s => aspec_at n stk c None args s)
                    (fun m l o args s => aspec_at n stk (CMeth m) (Some (l, o)) args s)
                    n (p_prim (ap_vm A) p args) s
      | CMeth m =>
          let call c args s := aspec_at n (fid :: stk) c None args s in
          activation
            (fun fid => ap_body A m (option_map fst blk)
               (ast_machine A call (fun fid _ v s => areturn call (fid :: stk) fid v s) m fid) n)
            m args (option_map snd blk) s
      end
  end.
End Spec.
Definition aspec (A : aprog) (n : nat) (c : callee) (args : list value) (s : vm) : vout value :=
  aspec_at A n [] c None args s.
(** The same program, its methods evaluated from their sources. *)
Definition asources (D : nat -> option mdef) (A : aprog) : aprog :=
  AProg (ap_vm A) (asource_body D) (ap_catch A) (ap_arr A).

(** * Which programs are considered *)
(** The names of C49, block literals with at most two parameters (others cannot be evaluated),
    and none of the trivial methods that C48_ast_setter_refuted and C48_ast_many_refuted are
    about. *)
Definition block_params (b : src) : list text := match b with SBlk _ ps _ _ _ _ => ps | _ => [] end.
Definition plain_method (d : mdef) (am : amethod) : Prop :=
  let m := md_src d in
  forallb self_ok (ms_body m) = true /\ self_ret (ms_ret m) = true /\ no_self (map fst (ms_locals m)) = true /\
  (length (ms_params m) <= 2 \/ exists c b, am = AMeth c b) /\ answers_assignment (ms_body m) (ms_ret m) = false /\
  forall p, In p (ms_blocks m) -> length (block_params (fst p)) <= 2.
Definition ast_prog (D : nat -> option mdef) (A : aprog) : Prop :=
  ap_body A = ast_body (ast_code D) /\ ap_catch A = ast_catches (ast_code D) /\ honest_prog (ap_vm A) /\
  forall mid d, D mid = Some d -> ok_method (md_src d) /\
    exists am, ast_of d = Ok am /\ plain_method d am.
