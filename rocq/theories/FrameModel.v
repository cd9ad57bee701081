(** Activation records of both interpreters: the layout the compiler chooses for the
    variables of a method or block, the frames built on entry, and the accesses the
    generated code performs. *)
From Coq Require Import ZArith Bool List Lia.
From Verif Require Import Base.
Import ListNotations.
Local Open Scope nat_scope.

(** interpreter/ast/frame.py 62-70 *)
Definition FRAME_INNER_IDX := 0.
Definition FRAME_AND_INNER_RCVR_IDX := 1.
Definition ARG_OFFSET := 2.
Definition INNER_ON_STACK_IDX := 0.

(** A slot of a frame, interpreter/ast/frame.py 72-73: slot 0 holds an erased list (or
    None), all other slots hold an erased object.  Simplification: the Inner is stored
    inside slot 0 by value; at creation nothing else refers to it. *)
Inductive cell := CObj (v : value) | CInner (i : option (list value)).

(** Python list assignment l[i] = v and read l[i] with a non-negative index. *)
Fixpoint put {A} (l : list A) (i : nat) (v : A) : res (list A) :=
  match l, i with
  | [], _ => Err IndexError
  | _ :: t, 0 => Ok (v :: t)
  | h :: t, S j => t' <- put t j v ;; Ok (h :: t')
  end.
Definition get {A} (l : list A) (i : nat) : res A :=
  match nth_error l i with Some v => Ok v | None => Err IndexError end.

(** compiler/ast/variable.py 15-40: what prepare_frame needs of a variable is whether it
    is accessed out of context; what it decides is the access index.  A variable is
    inner exactly when it is accessed out of context. *)
Record slot := { s_inner : bool; s_idx : nat }.

(** compiler/method_generation_context.py 148-164 _separate_variables.  The lists
    only_local_access and non_local_access start empty in both calls, so they are
    represented by their lengths [n_frame] and [n_inner]. *)
Fixpoint separate_variables (vars : list bool) (frame_offset inner_offset n_frame n_inner : nat)
  : list slot * (nat * nat) :=
  match vars with
  | [] => ([], (n_frame, n_inner))
  | true :: rest =>
      let '(ss, ns) := separate_variables rest frame_offset inner_offset n_frame (S n_inner) in
      ({| s_inner := true; s_idx := n_inner + inner_offset |} :: ss, ns)
  | false :: rest =>
      let '(ss, ns) := separate_variables rest frame_offset inner_offset (S n_frame) n_inner in
      ({| s_inner := false; s_idx := n_frame + frame_offset |} :: ss, ns)
  end.

(** What the method generation context knows about its variables when the method is
    assembled: flags "accessed out of context" of self, of the other arguments and of the
    locals; requires_context() (138-139) and needs_to_catch_non_local_returns. *)
Record scope := {
  sc_self : bool; sc_args : list bool; sc_locals : list bool;
  sc_requires_context : bool; sc_catches : bool }.

(** Result of prepare_frame, plus the access indices it stores into the variables. *)
Record layout := {
  ly_args : list slot; ly_locals : list slot;
  ly_arg_inner_access : list bool; ly_size_frame : nat; ly_size_inner : nat }.

(** compiler/method_generation_context.py 166-200 prepare_frame.  The access index of
    self is FRAME_AND_INNER_RCVR_IDX. *)
Definition prepare_frame (s : scope) : layout :=
  let '(aslots, (n_args, n_args_inner)) :=
    separate_variables (sc_args s) ARG_OFFSET ARG_OFFSET 0 0 in
  let '(lslots, (n_locals, n_locals_inner)) :=
    separate_variables (sc_locals s) (ARG_OFFSET + n_args) (ARG_OFFSET + n_args_inner) 0 0 in
  let size_frame := 1 + 1 + n_args + n_locals in
  let size_inner := n_args_inner + n_locals_inner in
  let size_inner :=
    if sc_requires_context s || (0 <? size_inner) || sc_catches s || sc_self s
    then size_inner + (1 + 1) else size_inner in
  {| ly_args := aslots; ly_locals := lslots; ly_arg_inner_access := sc_args s;
     ly_size_frame := size_frame; ly_size_inner := size_inner |}.

(** The common head of all create_frame functions, interpreter/ast/frame.py 76-92: a frame
    of nils, the Inner with its marker and receiver, the receiver in the frame. *)
Definition new_frame (receiver : value) (size_frame : nat) (inner : option (list value))
  : res (list cell) :=
  f <- put (repeat (CObj VNil) size_frame) FRAME_AND_INNER_RCVR_IDX (CObj receiver) ;;
  put f FRAME_INNER_IDX (CInner inner).

Definition new_inner (receiver : value) (size_inner : nat) : res (list value) :=
  i <- put (repeat VNil size_inner) INNER_ON_STACK_IDX VTrue ;;
  put i FRAME_AND_INNER_RCVR_IDX receiver.

(** Store the finished Inner back into slot 0 (the model's counterpart of having mutated
    the list slot 0 refers to). *)
Definition with_inner (f : list cell) (i : list value) : res (list cell) :=
  put f FRAME_INNER_IDX (CInner (Some i)).

(** interpreter/ast/frame.py 76-92 *)
Definition create_frame_1 (receiver : value) (size_frame size_inner : nat) : res (list cell) :=
  if 0 <? size_inner then
    i <- new_inner receiver size_inner ;;
    new_frame receiver size_frame (Some i)
  else new_frame receiver size_frame None.

(** interpreter/ast/frame.py 95-117 *)
Definition create_frame_2 (receiver arg : value) (arg_inner : bool) (size_frame size_inner : nat)
  : res (list cell) :=
  if 0 <? size_inner then
    i <- new_inner receiver size_inner ;;
    f <- new_frame receiver size_frame (Some i) ;;
    if arg_inner then
      i <- put i (FRAME_AND_INNER_RCVR_IDX + 1) arg ;; with_inner f i
    else put f (FRAME_AND_INNER_RCVR_IDX + 1) (CObj arg)
  else
    f <- new_frame receiver size_frame None ;;
    put f (FRAME_AND_INNER_RCVR_IDX + 1) (CObj arg).

(** The body shared by create_frame_3 of both interpreters, interpreter/ast/frame.py
    120-151 and interpreter/bc/frame.py 91-128; they differ only in which element of the
    access list belongs to which argument. *)
Definition create_frame_3_with (receiver arg1 arg2 : value) (inner1 inner2 : bool)
  (size_frame size_inner : nat) : res (list cell) :=
  if 0 <? size_inner then
    i <- new_inner receiver size_inner ;;
    f <- new_frame receiver size_frame (Some i) ;;
    if inner1 then
      i <- put i (FRAME_AND_INNER_RCVR_IDX + 1) arg1 ;;
      if inner2 then
        i <- put i (FRAME_AND_INNER_RCVR_IDX + 2) arg2 ;; with_inner f i
      else
        f <- put f (FRAME_AND_INNER_RCVR_IDX + 1) (CObj arg2) ;; with_inner f i
    else
      f <- put f (FRAME_AND_INNER_RCVR_IDX + 1) (CObj arg1) ;;
      if inner2 then
        i <- put i (FRAME_AND_INNER_RCVR_IDX + 1) arg2 ;; with_inner f i
      else put f (FRAME_AND_INNER_RCVR_IDX + 2) (CObj arg2)
  else
    f <- new_frame receiver size_frame None ;;
    f <- put f (FRAME_AND_INNER_RCVR_IDX + 1) (CObj arg1) ;;
    put f (FRAME_AND_INNER_RCVR_IDX + 2) (CObj arg2).

(** interpreter/ast/frame.py 120-151 *)
Definition ast_create_frame_3 (receiver arg1 arg2 : value) (arg_inner_access : list bool)
  (size_frame size_inner : nat) : res (list cell) :=
  if 0 <? size_inner then
    a0 <- get arg_inner_access 0 ;;
    a1 <- get arg_inner_access 1 ;;
    create_frame_3_with receiver arg1 arg2 a0 a1 size_frame size_inner
  else create_frame_3_with receiver arg1 arg2 false false size_frame size_inner.

(** interpreter/bc/frame.py 91-128 *)
Definition bc_create_frame_3 (arg_inner_access_reversed : list bool) (size_frame size_inner : nat)
  (receiver arg1 arg2 : value) : res (list cell) :=
  if 0 <? size_inner then
    a1 <- get arg_inner_access_reversed 1 ;;
    a0 <- get arg_inner_access_reversed 0 ;;
    create_frame_3_with receiver arg1 arg2 a1 a0 size_frame size_inner
  else create_frame_3_with receiver arg1 arg2 false false size_frame size_inner.

(** interpreter/ast/frame.py 175-185 *)
Fixpoint ast_set_without_inner (f : list cell) (arguments : list value) (acc : list bool)
  (arg_i frame_i todo : nat) : res (list cell) :=
  match todo with
  | 0 => Ok f
  | S todo' =>
      a <- get arguments arg_i ;;
      f <- put f frame_i (CObj a) ;;
      ast_set_without_inner f arguments acc (S arg_i) (S frame_i) todo'
  end.

(** interpreter/ast/frame.py 188-203; [todo] = len(arg_inner_access) - arg_i. *)
Fixpoint ast_set_with_inner (f : list cell) (i : list value) (arguments : list value)
  (acc : list bool) (arg_i frame_i inner_i todo : nat) : res (list cell * list value) :=
  match todo with
  | 0 => Ok (f, i)
  | S todo' =>
      b <- get acc arg_i ;;
      a <- get arguments arg_i ;;
      if b then
        i <- put i inner_i a ;;
        ast_set_with_inner f i arguments acc (S arg_i) frame_i (S inner_i) todo'
      else
        f <- put f frame_i (CObj a) ;;
        ast_set_with_inner f i arguments acc (S arg_i) (S frame_i) inner_i todo'
  end.

(** interpreter/ast/frame.py 154-172 (the None in slot 0 is erased as an object there;
    both erasures of None are the same run-time value). *)
Definition create_frame_args (receiver : value) (arguments : list value) (acc : list bool)
  (size_frame size_inner : nat) : res (list cell) :=
  if 0 <? size_inner then
    i <- new_inner receiver size_inner ;;
    f <- new_frame receiver size_frame (Some i) ;;
    if length arguments =? length acc then
      fi <- ast_set_with_inner f i arguments acc 0 2 2 (length acc) ;;
      with_inner (fst fi) (snd fi)
    else Err AssertionError
  else
    f <- new_frame receiver size_frame None ;;
    if length arguments =? length acc then
      ast_set_without_inner f arguments acc 0 2 (length acc)
    else Err AssertionError.

(** interpreter/bc/frame.py 131-141; [todo] = arg_i + 1. *)
Fixpoint bc_set_without_inner (f : list cell) (stack : list value) (ptr frame_i todo : nat)
  : res (list cell) :=
  match todo with
  | 0 => Ok f
  | S arg_i =>
      a <- get stack (ptr - arg_i) ;;
      f <- put f frame_i (CObj a) ;;
      bc_set_without_inner f stack ptr (S frame_i) arg_i
  end.

(** interpreter/bc/frame.py 144-165; [todo] = arg_i + 1. *)
Fixpoint bc_set_with_inner (f : list cell) (i : list value) (accr : list bool)
  (stack : list value) (ptr frame_i inner_i todo : nat) : res (list cell * list value) :=
  match todo with
  | 0 => Ok (f, i)
  | S arg_i =>
      a <- get stack (ptr - arg_i) ;;
      b <- get accr arg_i ;;
      if b then
        i <- put i inner_i a ;;
        bc_set_with_inner f i accr stack ptr frame_i (S inner_i) arg_i
      else
        f <- put f frame_i (CObj a) ;;
        bc_set_with_inner f i accr stack ptr (S frame_i) inner_i arg_i
  end.

(** interpreter/bc/frame.py 53-88.  The stack is a Python list, [ptr] the index of its
    top element, the receiver lies below the arguments. *)
Definition bc_create_frame (accr : list bool) (size_frame size_inner : nat)
  (stack : list value) (ptr num_args : nat) : res (list cell) :=
  receiver <- get stack (ptr - (num_args - 1)) ;;
  if num_args - 1 =? length accr then
    if 0 <? size_inner then
      i <- new_inner receiver size_inner ;;
      f <- new_frame receiver size_frame (Some i) ;;
      fi <- bc_set_with_inner f i accr stack ptr 2 2 (num_args - 1) ;;
      with_inner (fst fi) (snd fi)
    else
      f <- new_frame receiver size_frame None ;;
      bc_set_without_inner f stack ptr 2 (num_args - 1)
  else Err AssertionError.

(** Entering a method or block in the AST interpreter, vmobjects/method_ast.py 122-166:
    invoke_1, invoke_2, invoke_3, invoke_args.  Which one a caller uses depends on the
    number of arguments only; invoke_args accepts every number. *)
Inductive ast_entry := AstInvoke1 | AstInvoke2 | AstInvoke3 | AstInvokeArgs.

Definition ast_enter (e : ast_entry) (l : layout) (rcvr : value) (args : list value)
  : res (list cell) :=
  match e, args with
  | AstInvoke1, [] => create_frame_1 rcvr (ly_size_frame l) (ly_size_inner l)
  | AstInvoke2, [a] =>
      b <- get (ly_arg_inner_access l) 0 ;;
      create_frame_2 rcvr a b (ly_size_frame l) (ly_size_inner l)
  | AstInvoke3, [a; b] =>
      ast_create_frame_3 rcvr a b (ly_arg_inner_access l) (ly_size_frame l) (ly_size_inner l)
  | AstInvokeArgs, _ =>
      create_frame_args rcvr args (ly_arg_inner_access l) (ly_size_frame l) (ly_size_inner l)
  | _, _ => Err TypeError
  end.

(** compiler/bc/method_generation_context.py 141-153 (assemble): the list is reversed when
    it has more than one element. *)
Definition bc_arg_inner_access (l : layout) : list bool :=
  if 1 <? length (ly_arg_inner_access l) then rev (ly_arg_inner_access l)
  else ly_arg_inner_access l.

(** Entering a method or block in the bytecode interpreter, vmobjects/method_bc.py 214-253:
    invoke_1, invoke_2, invoke_3 receive values, invoke_n the caller's stack.  The number of
    arguments of the method counts the receiver. *)
Inductive bc_entry := BcInvoke1 | BcInvoke2 | BcInvoke3 | BcInvokeN (below above : list value).

(** [BcInvokeN below above]: the caller's stack has [below] under the receiver and unused
    slots [above] beyond the arguments. *)
Definition bc_enter (e : bc_entry) (l : layout) (rcvr : value) (args : list value)
  : res (list cell) :=
  match e, args with
  | BcInvoke1, [] => create_frame_1 rcvr (ly_size_frame l) (ly_size_inner l)
  | BcInvoke2, [a] =>
      b <- get (bc_arg_inner_access l) 0 ;;
      create_frame_2 rcvr a b (ly_size_frame l) (ly_size_inner l)
  | BcInvoke3, [a; b] =>
      bc_create_frame_3 (bc_arg_inner_access l) (ly_size_frame l) (ly_size_inner l) rcvr a b
  | BcInvokeN below above, _ =>
      bc_create_frame (bc_arg_inner_access l) (ly_size_frame l) (ly_size_inner l)
        (below ++ rcvr :: args ++ above) (length below + length args) (S (length args))
  | _, _ => Err TypeError
  end.

(** interpreter/bc/frame.py 168-175 stack_pop_old_arguments_and_push_result: None is
    represented by [None]. *)
Fixpoint pop_old_arguments (stack : list (option value)) (ptr : Z) (n : nat)
  : res (list (option value) * Z) :=
  match n with
  | 0 => Ok (stack, ptr)
  | S n' => s <- put stack (Z.to_nat ptr) None ;; pop_old_arguments s (ptr - 1)%Z n'
  end.
Definition stack_pop_old_arguments_and_push_result (stack : list (option value)) (ptr : Z)
  (num_args : nat) (result : value) : res (list (option value) * Z) :=
  sp <- pop_old_arguments stack ptr num_args ;;
  let ptr' := (snd sp + 1)%Z in
  s <- put (fst sp) (Z.to_nat ptr') (Some result) ;;
  Ok (s, ptr').

(** interpreter/ast/frame.py 215-234 *)
Definition read_frame (f : list cell) (idx : nat) : res value :=
  c <- get f idx ;; match c with CObj v => Ok v | CInner _ => Err UndefinedBehaviour end.
Definition write_frame (f : list cell) (idx : nat) (v : value) : res (list cell) :=
  put f idx (CObj v).
Definition frame_inner (f : list cell) : res (list value) :=
  c <- get f FRAME_INNER_IDX ;;
  match c with CInner (Some i) => Ok i | CInner None => Err TypeError | CObj _ => Err UndefinedBehaviour end.
Definition read_inner (f : list cell) (idx : nat) : res value :=
  i <- frame_inner f ;; get i idx.
Definition write_inner (f : list cell) (idx : nat) (v : value) : res (list cell) :=
  i <- frame_inner f ;; i <- put i idx v ;; with_inner f i.

(** vmobjects/block_ast.py 30-33 and block_bc.py 28-34 get_from_outer, 36-40 set_outer: a
    block holds the Inner of the activation that created it. *)
Definition get_from_outer (outer : list value) (idx : nat) : res value :=
  if idx <? length outer then get outer idx else Err AssertionError.
Definition set_outer (outer : list value) (idx : nat) (v : value) : res (list value) :=
  if idx <? length outer then put outer idx v else Err AssertionError.

(** compiler/ast/variable.py 50-68: the AST node selected for a variable at context level
    0, reading or writing; NonLocal nodes go through the block. *)
Definition ast_read (f : list cell) (s : slot) : res value :=
  if s_inner s then read_inner f (s_idx s) else read_frame f (s_idx s).
Definition ast_write (f : list cell) (s : slot) (v : value) : res (list cell) :=
  if s_inner s then write_inner f (s_idx s) v else write_frame f (s_idx s) v.

(** interpreter/bc/bytecodes.py: the variable access bytecodes, as far as the choice
    matters here. *)
Inductive acc_bc :=
| A_frame | A_frame_0 | A_frame_1 | A_frame_2 | A_inner | A_inner_0 | A_inner_1 | A_inner_2.

(** compiler/ast/variable.py 70-108 get_push_bytecode and get_pop_bytecode: the same
    decision for pushing and popping. *)
Definition access_bytecode (s : slot) (ctx_level : nat) : acc_bc :=
  if s_inner s then
    if ctx_level =? 0 then
      if s_idx s =? FRAME_AND_INNER_RCVR_IDX + 0 then A_inner_0
      else if s_idx s =? FRAME_AND_INNER_RCVR_IDX + 1 then A_inner_1
      else if s_idx s =? FRAME_AND_INNER_RCVR_IDX + 2 then A_inner_2
      else A_inner
    else A_inner
  else
    if ctx_level =? 0 then
      if s_idx s =? FRAME_AND_INNER_RCVR_IDX + 0 then A_frame_0
      else if s_idx s =? FRAME_AND_INNER_RCVR_IDX + 1 then A_frame_1
      else if s_idx s =? FRAME_AND_INNER_RCVR_IDX + 2 then A_frame_2
      else A_frame
    else A_frame.

(** interpreter/bc/interpreter.py 148-195 (push_frame .. push_inner_2) at context level 0;
    [idx] is the operand byte, written by vmobjects/method_bc.py 192-197. *)
Definition bc_run_push (b : acc_bc) (idx : nat) (f : list cell) : res value :=
  match b with
  | A_frame => read_frame f idx
  | A_frame_0 => read_frame f (FRAME_AND_INNER_RCVR_IDX + 0)
  | A_frame_1 => read_frame f (FRAME_AND_INNER_RCVR_IDX + 1)
  | A_frame_2 => read_frame f (FRAME_AND_INNER_RCVR_IDX + 2)
  | A_inner => read_inner f idx
  | A_inner_0 => read_inner f (FRAME_AND_INNER_RCVR_IDX + 0)
  | A_inner_1 => read_inner f (FRAME_AND_INNER_RCVR_IDX + 1)
  | A_inner_2 => read_inner f (FRAME_AND_INNER_RCVR_IDX + 2)
  end.

(** interpreter/bc/interpreter.py 283-355 (pop_frame .. pop_inner_2) at context level 0. *)
Definition bc_run_pop (b : acc_bc) (idx : nat) (f : list cell) (v : value) : res (list cell) :=
  match b with
  | A_frame => write_frame f idx v
  | A_frame_0 => write_frame f (FRAME_AND_INNER_RCVR_IDX + 0) v
  | A_frame_1 => write_frame f (FRAME_AND_INNER_RCVR_IDX + 1) v
  | A_frame_2 => write_frame f (FRAME_AND_INNER_RCVR_IDX + 2) v
  | A_inner => write_inner f idx v
  | A_inner_0 => write_inner f (FRAME_AND_INNER_RCVR_IDX + 0) v
  | A_inner_1 => write_inner f (FRAME_AND_INNER_RCVR_IDX + 1) v
  | A_inner_2 => write_inner f (FRAME_AND_INNER_RCVR_IDX + 2) v
  end.

(** vmobjects/method_bc.py 173-197 patch_variable_access, then the bytecode is retried; the
    access index has to fit into one byte. *)
Definition bc_read (f : list cell) (s : slot) : res value :=
  if (1 <=? s_idx s) && (s_idx s <=? 255)
  then bc_run_push (access_bytecode s 0) (s_idx s) f else Err AssertionError.
Definition bc_write (f : list cell) (s : slot) (v : value) : res (list cell) :=
  if (1 <=? s_idx s) && (s_idx s <=? 255)
  then bc_run_pop (access_bytecode s 0) (s_idx s) f v else Err AssertionError.
