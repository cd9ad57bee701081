(** The run time of the bytecode interpreter: objects, activations, invoking methods, blocks
    and primitives, and returns out of blocks.  som/vmobjects/method_bc.py (invoke_1/2/3/n,
    _interp_with_nlr), som/vmobjects/block_bc.py, som/interpreter/bc/interpreter.py
    (_do_return_non_local, get_self, sends), som/interpreter/bc/frame.py (get_block_at,
    get_self_dynamically), som/interpreter/send.py, som/primitives/block_primitives.py.

    What methods do is a parameter: [BcInterp.run_method] for compiled methods,
    [BcSpec.eval_method] for their source. *)
From Coq Require Import ZArith Bool String Ascii List Lia.
From Verif Require Import Base LexModel ParseModel BcModel BcInterp.
Import ListNotations.
Open Scope nat_scope.
Open Scope list_scope.

(** * State *)
(** Objects by address ([VObj a] is the object at [a]): instances with their class and fields
    (vmobjects/object_with_layout.py), blocks with the number of their method, of the block
    literal in it and of the activation they were created in (block_bc.py 13-19), arrays, and
    anything else. *)
Inductive obj :=
| OInst (cls : nat) (fields : list value)
| OBlk (mid label outer : nat)
| OArr (elems : list value)
| OOther (d : nat).
(** The objects, the globals (vm/universe.py 369-398) and what has been written. *)
Record store := Store { s_objs : list obj; s_globs : list (text * value); s_out : list text }.
(** An activation: its method, receiver and arguments, locals by declaration (nil when never
    assigned), the activation around it if it is one of a block, and the on-stack mark
    (interpreter/ast/frame.py 6-60).  Simplification: frame and inner are one (that each
    variable has a slot in one of them is C40); the outer context of a block's activation is
    recorded in the activation rather than found through its receiver, which no name denotes. *)
Record frame := Frame {
  f_meth : nat; f_args : list value; f_locs : list (nat * value); f_outer : option nat;
  f_live : bool }.
(** Activations are numbered in the order of their creation and never reused. *)
Record vm := Vm { v_store : store; v_frames : list frame }.
(** ReturnException (control_flow.py 1-18) with its target, and other Python exceptions. *)
Inductive stop := XRet (home : nat) (v : value) | XPy (e : exn).
Notation vout := (out vm stop).

Fixpoint set_at {A} (l : list A) (i : nat) (x : A) : list A :=
  match l, i with
  | _ :: r, O => x :: r
  | a :: r, S i => a :: set_at r i x
  | [], _ => []
  end.
Definition set_store (st : store) (s : vm) : vm := Vm st (v_frames s).
Definition set_frame (i : nat) (f : frame) (s : vm) : vm := Vm (v_store s) (set_at (v_frames s) i f).
Definition raise {A} (e : exn) (s : vm) : vout A := Abrupt (XPy e) s.

(** Association lists. *)
Fixpoint assoc_loc (d : nat) (l : list (nat * value)) : value :=
  match l with
  | [] => VNil
  | (e, v) :: r => if d =? e then v else assoc_loc d r
  end.
Fixpoint assoc_glob (n : text) (l : list (text * value)) : option value :=
  match l with
  | [] => None
  | (m, v) :: r => if text_eqb n m then Some v else assoc_glob n r
  end.

(** * Programs *)
Inductive callee := CMeth (mid : nat) | CPrim (p : nat).
(** What a primitive does: it reads and changes the store, sends messages, invokes methods,
    evaluates blocks, and answers or raises.  (primitives/*.py) *)
Inductive act :=
| ARet (v : value)
| AErr (e : exn)
| AStore (f : store -> store) (k : store -> act)
| ASend (sel : text) (args : list value) (k : value -> act)
| AInvoke (c : callee) (args : list value) (k : value -> act)
| AEval (blk : value) (args : list value) (k : value -> act)
| AWhile (cond body : value) (on : bool) (k : act).

(** A program: method lookup in the class of a receiver and from the superclass of a method's
    holder; the message doesNotUnderstand:arguments: that is sent when there is no method
    (it makes an array); what the primitives do; what bodies of methods and of the block
    literals in them do; which methods are BcMethodNLR; and prim_inc and prim_dec. *)
Record prog := Prog {
  p_find : text -> value -> store -> option callee;
  p_super : nat -> text -> store -> option callee;
  p_dnu : text -> list value -> store -> list value * store;
  p_prim : nat -> list value -> act;
  p_body : nat -> option nat -> machine vm stop -> nat -> vm -> vout value;
  p_catch : nat -> bool;
  p_inc : value -> res value;
  p_dec : value -> res value }.

Definition t_dnu : text := str "doesNotUnderstand:arguments:".
Definition t_escaped : text := str "escapedBlock:".
Definition t_unknown : text := str "unknownGlobal:".

(** * Frames *)
(** get_block_at (bc/frame.py 178-185) and the context of that block: [k] activations out *)
Fixpoint up (fs : list frame) (k fid : nat) : option nat :=
  match k with
  | O => Some fid
  | S k => match nth_error fs fid with
           | Some f => match f_outer f with Some o => up fs k o | None => None end
           | None => None
           end
  end.
Definition receiver (fs : list frame) (fid : nat) : option value :=
  match nth_error fs fid with Some f => nth_error (f_args f) 0 | None => None end.
Definition the_block (st : store) (v : value) : option (nat * nat * nat) :=
  match v with
  | VObj a => match nth_error (s_objs st) a with Some (OBlk m l o) => Some (m, l, o) | _ => None end
  | _ => None
  end.
(** get_self_dynamically (bc/frame.py 188-200): out of blocks as long as the receiver is one.
    As many steps as there are activations are enough, unless the loop does not end (which
    takes an assignment to self). *)
Fixpoint self_of (st : store) (fs : list frame) (n : nat) (v : value) : option value :=
  match the_block st v with
  | None => Some v
  | Some (_, _, o) =>
      match n with
      | O => None
      | S n => match receiver fs o with Some w => self_of st fs n w | None => None end
      end
  end.
Definition self_dynamically (s : vm) (fid : nat) : option value :=
  match receiver (v_frames s) fid with
  | Some v => self_of (v_store s) (v_frames s) (length (v_frames s)) v
  | None => None
  end.

(** * Operations of an activation *)
Section Ops.
Variable P : prog.
(** Invoking methods and primitives, and evaluating a block literal in its context. *)
Variable call : callee -> list value -> vm -> vout value.
Variable enter : nat -> nat -> nat -> list value -> vm -> vout value.

(** dispatch_1/2/3/n (ast/nodes/dispatch.py, bc/interpreter.py 392-461) and
    send_does_not_understand *)
Definition vm_send (sel : text) (args : list value) (s : vm) : vout value :=
  match args with
  | [] => Stuck
  | r :: _ =>
      match p_find P sel r (v_store s) with
      | Some c => call c args s
      | None =>
          let '(args, st) := p_dnu P sel args (v_store s) in
          let s := set_store st s in
          match p_find P t_dnu r st with
          | Some c => call c args s
          | None => raise AttributeError s
          end
      end
  end.
(** lookup_and_send_2 (send.py 4-10): no doesNotUnderstand: *)
Definition vm_send2 (sel : text) (r a : value) (s : vm) : vout value :=
  match p_find P sel r (v_store s) with
  | Some c => call c [r; a] s
  | None => raise AttributeError s
  end.
(** _do_super_send (interpreter.py 39-69): [invokable] is None when nothing is found *)
Definition vm_super (mid : nat) (sel : text) (args : list value) (s : vm) : vout value :=
  match p_super P mid sel (v_store s) with
  | Some c => call c args s
  | None => raise AttributeError s
  end.
(** block_evaluation_primitive, _invoke_1/2/3 (block_bc.py 59-78) *)
Definition vm_value (blk : value) (args : list value) (s : vm) : vout value :=
  match the_block (v_store s) blk with
  | Some (m, l, o) => enter m l o (blk :: args) s
  | None => raise AttributeError s
  end.
(** _while_loop (block_primitives.py 37-52); the methods of both blocks are taken first *)
Fixpoint vm_while (n : nat) (cond body : value) (on : bool) (s : vm) : vout value :=
  match n with
  | O => Hang
  | S n => bind (vm_value cond [] s) (fun v s =>
           if takes (if on then OnTrue else OnFalse) v then bind (vm_value body [] s) (fun _ s => vm_while n cond body on s)
           else Done VNil s)
  end.
Fixpoint run_act (n : nat) (a : act) (s : vm) {struct a} : vout value :=
  match a with
  | ARet v => Done v s
  | AErr e => raise e s
  | AStore f k => run_act n (k (v_store s)) (set_store (f (v_store s)) s)
  | ASend sel args k => bind (vm_send sel args s) (fun v s => run_act n (k v) s)
  | AInvoke c args k => bind (call c args s) (fun v s => run_act n (k v) s)
  | AEval b args k => bind (vm_value b args s) (fun v s => run_act n (k v) s)
  | AWhile c b on k =>
      match the_block (v_store s) b, the_block (v_store s) c with
      | Some _, Some _ => bind (vm_while n c b on s) (fun _ s => run_act n k s)
      | _, _ => raise AttributeError s
      end
  end.

Definition of_res (r : res value) (s : vm) : vout value :=
  match r with Ok v => Done v s | Err e => raise e s end.
Definition at_level {A} (k fid : nat) (s : vm) (f : nat -> frame -> vout A) : vout A :=
  match up (v_frames s) k fid with
  | Some i => match nth_error (v_frames s) i with Some fr => f i fr | None => raise AssertionError s end
  | None => raise AssertionError s
  end.
(** push_local, push_argument (patched to push_frame, push_inner, interpreter.py 148-195) *)
Definition vm_rd (fid k : nat) (v : vref) (s : vm) : vout value :=
  at_level k fid s (fun _ fr =>
  match v with
  | VLoc d => Done (assoc_loc d (f_locs fr)) s
  | VArg i => match nth_error (f_args fr) i with Some v => Done v s | None => raise IndexError s end
  end).
(** pop_local, pop_argument (interpreter.py 283-355) *)
Definition vm_wr (fid k : nat) (v : vref) (x : value) (s : vm) : vout unit :=
  at_level k fid s (fun i fr =>
  match v with
  | VLoc d => Done tt (set_frame i (Frame (f_meth fr) (f_args fr) ((d, x) :: f_locs fr) (f_outer fr) (f_live fr)) s)
  | VArg a => if a <? length (f_args fr)
              then Done tt (set_frame i (Frame (f_meth fr) (set_at (f_args fr) a x) (f_locs fr) (f_outer fr) (f_live fr)) s)
              else raise IndexError s
  end).
(** push_field, pop_field (197-215, 357-390), get_self (819-823), get_field, set_field: the
    receiver of the activation [k] levels out must be an instance with that field *)
Definition vm_fields {A} (fid k : nat) (s : vm) (f : nat -> nat -> list value -> vout A) : vout A :=
  at_level k fid s (fun _ fr =>
  match nth_error (f_args fr) 0 with
  | Some (VObj a) => match nth_error (s_objs (v_store s)) a with
                     | Some (OInst c fl) => f a c fl
                     | _ => raise AttributeError s
                     end
  | _ => raise AttributeError s
  end).
Definition vm_getf (fid k i : nat) (s : vm) : vout value :=
  vm_fields fid k s (fun _ _ fl =>
  match nth_error fl i with Some v => Done v s | None => raise IndexError s end).
Definition vm_setf (fid k i : nat) (v : value) (s : vm) : vout unit :=
  vm_fields fid k s (fun a c fl =>
  if i <? length fl
  then Done tt (set_store (Store (set_at (s_objs (v_store s)) a (OInst c (set_at fl i v)))
                                 (s_globs (v_store s)) (s_out (v_store s))) s)
  else raise IndexError s).
(** inc, dec (491-523) *)
Definition vm_inc (v : value) (s : vm) : vout value := of_res (p_inc P v) s.
Definition vm_dec (v : value) (s : vm) : vout value := of_res (p_dec P v) s.
(** inc_field, inc_field_push (525-540) *)
Definition vm_incf (fid k i : nat) (s : vm) : vout value :=
  bind (vm_getf fid k i s) (fun v s => bind (vm_inc v s) (fun v s =>
  bind (vm_setf fid k i v s) (fun _ s => Done v s))).
(** push_global (264-275): unknownGlobal: goes to the self of the method *)
Definition vm_glob (fid : nat) (n : text) (s : vm) : vout value :=
  match assoc_glob n (s_globs (v_store s)) with
  | Some v => Done v s
  | None => match self_dynamically s fid with
            | Some self => vm_send2 t_unknown self (sym_value n) s
            | None => Hang
            end
  end.
(** push_block (217-227).  Simplification: push_block_no_ctx, which makes a block without its
    context, is treated in the same way here. *)
Definition vm_blk (fid l : nat) (s : vm) : vout value :=
  match nth_error (v_frames s) fid with
  | Some fr =>
      let st := v_store s in
      Done (VObj (length (s_objs st)))
           (set_store (Store (s_objs st ++ [OBlk (f_meth fr) l fid]) (s_globs st) (s_out st)) s)
  | None => raise AssertionError s
  end.
(** _do_return_non_local (72-85): the return is raised if the context [k] levels out is
    marked as on the stack, otherwise escapedBlock: is sent to the self of the method *)
Definition vm_nlr (fid k : nat) (v : value) (s : vm) : vout value :=
  at_level k fid s (fun h fr =>
  if f_live fr then Abrupt (XRet h v) s
  else match receiver (v_frames s) fid, self_dynamically s fid with
       | Some blk, Some self => vm_send2 t_escaped self blk s
       | _, _ => Hang
       end).
(** The machine of activation [fid] of method [mid]. *)
Definition vm_machine (nlr : nat -> nat -> value -> vm -> vout value) (mid fid : nat)
  : machine vm stop := {|
  m_send := vm_send; m_super := vm_super mid; m_glob := vm_glob fid; m_blk := vm_blk fid;
  m_rd := vm_rd fid; m_wr := vm_wr fid; m_getf := vm_getf fid; m_setf := vm_setf fid;
  m_incf := vm_incf fid; m_inc := vm_inc; m_dec := vm_dec; m_nlr := nlr fid |}.
End Ops.

(** * Activations *)
Definition push_frame (mid : nat) (args : list value) (outer : option nat) (s : vm) : vm :=
  Vm (v_store s) (v_frames s ++ [Frame mid args [] outer true]).
(** mark_as_no_longer_on_stack (ast/frame.py 206-208) *)
Definition mark (fid : nat) (s : vm) : vm :=
  match nth_error (v_frames s) fid with
  | Some f => set_frame fid (Frame (f_meth f) (f_args f) (f_locs f) (f_outer f) false) s
  | None => s
  end.
(** BcMethod.invoke_1/2/3/n (method_bc.py 215-253): the activation answers what its bytecodes
    answer; BcMethodNLR (644-700) with _interp_with_nlr (200-211) catches the returns to it
    and clears the mark. *)
Definition activate (catch : bool) (body : nat -> vm -> vout value) (mid : nat) (args : list value)
  (outer : option nat) (s : vm) : vout value :=
  let fid := length (v_frames s) in
  let leave s := if catch then mark fid s else s in
  match body fid (push_frame mid args outer s) with
  | Done v s | Retn v s => Done v (leave s)
  | Abrupt (XRet h v) s =>
      if catch && (h =? fid) then Done v (leave s) else Abrupt (XRet h v) (leave s)
  | Abrupt (XPy e) s => Abrupt (XPy e) s
  | Hang => Hang
  | Stuck => Stuck
  end.

(** * Running *)
(** Invoking a method or a primitive ([None]) or the block literal with a number, in an
    activation ([Some]); at most [n] nested invocations and rounds or bytecodes in each. *)
Section Run.
Variable P : prog.
Fixpoint call_at (n : nat) (c : callee) (blk : option (nat * nat)) (args : list value) (s : vm)
  {struct n} : vout value :=
  match n with
  | O => Hang
  | S n =>
      let call c args s := call_at n c None args s in
      let enter m l o args s := call_at n (CMeth m) (Some (l, o)) args s in
      match c, blk with
      | CPrim p, _ => run_act P call enter n (p_prim P p args) s
      | CMeth m, None =>
          activate (p_catch P m)
            (fun fid => p_body P m None (vm_machine P call (vm_nlr P call) m fid) n)
            m args None s
      | CMeth m, Some (l, o) =>
          activate false
            (fun fid => p_body P m (Some l) (vm_machine P call (vm_nlr P call) m fid) n)
            m args (Some o) s
      end
  end.
Definition call (n : nat) (c : callee) (args : list value) (s : vm) : vout value :=
  call_at n c None args s.
End Run.
