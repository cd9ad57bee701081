(** The bytecode interpreter loop, som/interpreter/bc/interpreter.py 117-797. *)
From Coq Require Import ZArith Bool String Ascii List Lia.
From Verif Require Import Base LexModel ParseModel BcModel.
Import ListNotations.
Open Scope nat_scope.
Open Scope list_scope.

(** * Outcomes and machines *)
(** What running a piece of code over states [S] can do: go on with a result, answer from
    the activation, raise an exception of [X] (a Python exception or a non-local return on
    its way), not stop within the given number of steps, or go wrong: a bytecode outside the
    table, a missing literal, an operand stack over its size or below empty. *)
Inductive out (S X A : Type) : Type :=
| Done (a : A) (s : S)
| Retn (v : value) (s : S)
| Abrupt (x : X) (s : S)
| Hang
| Stuck.
Arguments Done {S X A}. Arguments Retn {S X A}. Arguments Abrupt {S X A}.
Arguments Hang {S X A}. Arguments Stuck {S X A}.
Definition bind {S X A B : Type} (m : out S X A) (f : A -> S -> out S X B) : out S X B :=
  match m with
  | Done a s => f a s
  | Retn v s => Retn v s
  | Abrupt x s => Abrupt x s
  | Hang => Hang
  | Stuck => Stuck
  end.
Definition need {S X A B : Type} (o : option A) (f : A -> out S X B) : out S X B :=
  match o with Some a => f a | None => Stuck end.

(** Everything a bytecode asks of the rest of the VM, over abstract states and exceptions:
    sends (dispatch_1/2/3/n, _do_super_send), globals with unknownGlobal: (264-275), making
    a block (217-227, by the number of the block literal), reading and writing a variable
    (context level, variable), fields of the self at a context level, prim_inc and prim_dec
    or the error of other receivers (491-523), inc_field, and _do_return_non_local (72-85),
    which raises the return, or answers what escapedBlock: answers.
    Simplification: a local is identified by its declaration; that declarations get slots of
    their own in frames is C40.  Bytecodes that patch themselves (785-796) are executed as
    the access they are patched to. *)
Record machine (S X : Type) : Type := Machine {
  m_send : text -> list value -> S -> out S X value;
  m_super : text -> list value -> S -> out S X value;
  m_glob : text -> S -> out S X value;
  m_blk : nat -> S -> out S X value;
  m_rd : nat -> vref -> S -> out S X value;
  m_wr : nat -> vref -> value -> S -> out S X unit;
  m_getf : nat -> nat -> S -> out S X value;
  m_setf : nat -> nat -> value -> S -> out S X unit;
  m_incf : nat -> nat -> S -> out S X value;
  m_inc : value -> S -> out S X value;
  m_dec : value -> S -> out S X value;
  m_nlr : nat -> value -> S -> out S X value }.
Arguments m_send {S X}. Arguments m_super {S X}. Arguments m_glob {S X}.
Arguments m_blk {S X}. Arguments m_rd {S X}. Arguments m_wr {S X}. Arguments m_getf {S X}.
Arguments m_setf {S X}. Arguments m_incf {S X}. Arguments m_inc {S X}. Arguments m_dec {S X}.
Arguments m_nlr {S X}.

(** * Jumps (542-753) *)
Inductive jkind := JAlways | JTop (c : cond) | JPop (c : cond) | JBack.
(** Which jump a bytecode is, and whether its offset has two bytes. *)
Definition jump_form (b : bc) : option (jkind * bool) :=
  match b with
  | B_jump => Some (JAlways, false)
  | B_jump_on_true_top_nil => Some (JTop OnTrue, false)
  | B_jump_on_false_top_nil => Some (JTop OnFalse, false)
  | B_jump_on_true_pop => Some (JPop OnTrue, false)
  | B_jump_on_false_pop => Some (JPop OnFalse, false)
  | B_jump_on_not_nil_top_top => Some (JTop OnNotNil, false)
  | B_jump_on_nil_top_top => Some (JTop OnNil, false)
  | B_jump_on_not_nil_pop => Some (JPop OnNotNil, false)
  | B_jump_on_nil_pop => Some (JPop OnNil, false)
  | B_jump_backward => Some (JBack, false)
  | B_jump2 => Some (JAlways, true)
  | B_jump2_on_true_top_nil => Some (JTop OnTrue, true)
  | B_jump2_on_false_top_nil => Some (JTop OnFalse, true)
  | B_jump2_on_true_pop => Some (JPop OnTrue, true)
  | B_jump2_on_false_pop => Some (JPop OnFalse, true)
  | B_jump2_on_not_nil_top_top => Some (JTop OnNotNil, true)
  | B_jump2_on_nil_top_top => Some (JTop OnNil, true)
  | B_jump2_on_not_nil_pop => Some (JPop OnNotNil, true)
  | B_jump2_on_nil_pop => Some (JPop OnNil, true)
  | B_jump2_backward => Some (JBack, true)
  | _ => None
  end.
(** Is the jump taken on this value?  (`is trueObject`, ...) *)
Definition takes (c : cond) (v : value) : bool :=
  match c, v with
  | OnTrue, VTrue => true
  | OnFalse, VFalse => true
  | OnNil, VNil => true
  | OnNotNil, VNil => false
  | OnNotNil, _ => true
  | _, _ => false
  end.
(** What a taken jump of the kinds _top_nil and _top_top leaves on the stack. *)
Definition left_value (c : cond) (v : value) : value :=
  match c with OnTrue | OnFalse => VNil | OnNil | OnNotNil => v end.

(** * One bytecode *)
Section Interp.
Context {S X : Type}.
Variable μ : machine S X.
Variable cap : nat.                   (* max_stack_size *)
Variable chain : list (list nat).     (* the locals of the method and of the methods around it *)
Variable lits : list literal.
Variable bs : list nat.

Definition push (v : value) (pc : nat) (st : list value) (s : S) : out S X (nat * list value) :=
  if length st <? cap then Done (pc, v :: st) s else Stuck.
Definition pop (st : list value) {B} (f : value -> list value -> out S X B) : out S X B :=
  match st with v :: r => f v r | [] => Stuck end.
(** The receiver and the arguments of a send, receiver first. *)
Definition popn (n : nat) (st : list value) {B} (f : list value -> list value -> out S X B)
  : out S X B :=
  if n <=? length st then f (rev (firstn n st)) (skipn n st) else Stuck.
Definition slot (c i : nat) : option nat :=
  match nth_error chain c with Some l => nth_error l i | None => None end.
Definition lit_val (i : nat) : option value :=
  match nth_error lits i with Some l => lit_value l | None => None end.
Definition lit_sym (i : nat) : option text :=
  match nth_error lits i with Some (LS t) => Some t | _ => None end.
Definition lit_label (i : nat) : option nat :=
  match nth_error lits i with Some (LM m) => Some (me_label m) | _ => None end.

Definition do_send (f : text -> list value -> S -> out S X value) (n : nat) (sel : text)
  (pc : nat) (st : list value) (s : S) : out S X (nat * list value) :=
  popn n st (fun args r => bind (f sel args s) (fun v s => push v pc r s)).

Definition step (pc : nat) (st : list value) (s : S) : out S X (nat * list value) :=
  need (nth_error bs pc) (fun n =>
  need (of_num n) (fun b =>
  let next := pc + blen b in
  let arg1 {B} := @need S X nat B (nth_error bs (pc + 1)) in
  let arg2 {B} := @need S X nat B (nth_error bs (pc + 2)) in
  match jump_form b with
  | Some (k, wide) =>
      arg1 (fun x => arg2 (fun y =>
      let off := if wide then x + y * 256 else x in
      match k with
      | JAlways => Done (pc + off, st) s
      | JBack => if off <=? pc then Done (pc - off, st) s else Stuck
      | JTop c => pop st (fun v r =>
          if takes c v then Done (pc + off, left_value c v :: r) s else Done (next, r) s)
      | JPop c => pop st (fun v r =>
          if takes c v then Done (pc + off, r) s else Done (next, r) s)
      end))
  | None =>
  match b with
  | B_halt | B_return_local => pop st (fun v _ => Retn v s)
  | B_dup => pop st (fun v r => push v next st s)
  | B_push_local => arg1 (fun i => arg2 (fun c => need (slot c i) (fun d =>
      bind (m_rd μ c (VLoc d) s) (fun v s => push v next st s))))
  | B_push_argument => arg1 (fun i => arg2 (fun c =>
      bind (m_rd μ c (VArg i) s) (fun v s => push v next st s)))
  | B_pop_local => arg1 (fun i => arg2 (fun c => need (slot c i) (fun d =>
      pop st (fun v r => bind (m_wr μ c (VLoc d) v s) (fun _ s => Done (next, r) s)))))
  | B_pop_argument => arg1 (fun i => arg2 (fun c =>
      pop st (fun v r => bind (m_wr μ c (VArg i) v s) (fun _ s => Done (next, r) s))))
  | B_push_field => arg1 (fun i => arg2 (fun c =>
      bind (m_getf μ c i s) (fun v s => push v next st s)))
  | B_push_field_0 => bind (m_getf μ 0 0 s) (fun v s => push v next st s)
  | B_push_field_1 => bind (m_getf μ 0 1 s) (fun v s => push v next st s)
  | B_pop_field => arg1 (fun i => arg2 (fun c =>
      pop st (fun v r => bind (m_setf μ c i v s) (fun _ s => Done (next, r) s))))
  | B_pop_field_0 => pop st (fun v r => bind (m_setf μ 0 0 v s) (fun _ s => Done (next, r) s))
  | B_pop_field_1 => pop st (fun v r => bind (m_setf μ 0 1 v s) (fun _ s => Done (next, r) s))
  | B_push_block | B_push_block_no_ctx => arg1 (fun i => need (lit_label i) (fun l =>
      bind (m_blk μ l s) (fun v s => push v next st s)))
  | B_push_constant => arg1 (fun i => need (lit_val i) (fun v => push v next st s))
  | B_push_constant_0 => need (lit_val 0) (fun v => push v next st s)
  | B_push_constant_1 => need (lit_val 1) (fun v => push v next st s)
  | B_push_constant_2 => need (lit_val 2) (fun v => push v next st s)
  | B_push_0 => push (VInt 0) next st s
  | B_push_1 => push (VInt 1) next st s
  | B_push_nil => push VNil next st s
  | B_push_global => arg1 (fun i => need (lit_sym i) (fun t =>
      bind (m_glob μ t s) (fun v s => push v next st s)))
  | B_pop => pop st (fun _ r => Done (next, r) s)
  | B_send_1 => arg1 (fun i => need (lit_sym i) (fun t => do_send (m_send μ) 1 t next st s))
  | B_send_2 => arg1 (fun i => need (lit_sym i) (fun t => do_send (m_send μ) 2 t next st s))
  | B_send_3 => arg1 (fun i => need (lit_sym i) (fun t => do_send (m_send μ) 3 t next st s))
  | B_send_n => arg1 (fun i => need (lit_sym i) (fun t =>
      do_send (m_send μ) (nargs t) t next st s))
  | B_super_send => arg1 (fun i => need (lit_sym i) (fun t =>
      do_send (m_super μ) (nargs t) t next st s))
  | B_return_non_local => arg1 (fun c =>
      pop st (fun v _ => bind (m_nlr μ c v s) (fun v s => Retn v s)))
  | B_return_self => bind (m_rd μ 0 (VArg 0) s) (fun v s => Retn v s)
  | B_return_field_0 => bind (m_getf μ 0 0 s) (fun v s => Retn v s)
  | B_return_field_1 => bind (m_getf μ 0 1 s) (fun v s => Retn v s)
  | B_return_field_2 => bind (m_getf μ 0 2 s) (fun v s => Retn v s)
  | B_inc => pop st (fun v r => bind (m_inc μ v s) (fun v s => push v next r s))
  | B_dec => pop st (fun v r => bind (m_dec μ v s) (fun v s => push v next r s))
  | B_inc_field => arg1 (fun i => arg2 (fun c =>
      bind (m_incf μ c i s) (fun _ s => Done (next, st) s)))
  | B_inc_field_push => arg1 (fun i => arg2 (fun c =>
      bind (m_incf μ c i s) (fun v s => push v next st s)))
  | _ => Stuck
  end end)).

(** interpret (116-798): at most [k] bytecodes from index [pc] *)
Fixpoint run (k : nat) (pc : nat) (st : list value) (s : S) : out S X value :=
  match k with
  | O => Hang
  | Datatypes.S k => bind (step pc st s) (fun p s => run k (fst p) (snd p) s)
  end.
End Interp.

(** Running a method: an empty operand stack of the method's size.  [outer] are the locals
    of the methods around it. *)
Definition run_method {S X} (μ : machine S X) (outer : list (list nat)) (m : meth) (k : nat)
  (s : S) : out S X value :=
  run μ (Z.to_nat (me_max m)) (map snd (me_locals m) :: outer) (me_lits m) (me_bytes m) k 0 [] s.
