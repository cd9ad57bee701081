(** Calls whose number of arguments is chosen at run time: perform:withArguments:, and the
    primitives that evaluate a block.  Entering the method is FrameModel. *)
From Coq Require Import List.
From Verif Require Import Base FrameModel.
Import ListNotations.
Local Open Scope nat_scope.

(** perform:withArguments: once the method is found (primitives/object_primitives.py 70-83);
    [elements] is the content of the array.  perform: and perform:inSuperclass: (60-67) are the case
    of no element.  The primitives that evaluate a block call the same methods on the method of the
    block, with the block as the receiver: ifTrue:, ifFalse:, ifTrue:ifFalse:, and:, or:, whileTrue:,
    whileFalse:, putAll: with no argument (true_primitives.py 20-35, false_primitives.py 20-35,
    block_primitives.py 36-52, vmobjects/array.py 104-225), do:, doIndexes:, to:do:, to:by:do:,
    downTo:do: with one (array_primitives.py 52-86, bc/integer_primitives.py 56-160 and the nodes of
    interpreter/ast/nodes/specialized). *)
Definition ast_perform (s : scope) (rcvr : value) (elements : list value) : res (list cell) :=
  match elements with
  | [] => ast_enter AstInvoke1 (prepare_frame s) rcvr elements
  | [_] => ast_enter AstInvoke2 (prepare_frame s) rcvr elements
  | [_; _] => ast_enter AstInvoke3 (prepare_frame s) rcvr elements
  | _ => Err PyException
  end.
Definition bc_perform (s : scope) (rcvr : value) (elements : list value) : res (list cell) :=
  match elements with
  | [] => bc_enter BcInvoke1 (prepare_frame s) rcvr elements
  | [_] => bc_enter BcInvoke2 (prepare_frame s) rcvr elements
  | [_; _] => bc_enter BcInvoke3 (prepare_frame s) rcvr elements
  | _ => Err PyException
  end.

(** The class of a block (vmobjects/block_ast.py 46-50, block_bc.py 52-56) is the element of
    universe.block_classes (vm/universe.py 307-309: Block, Block1, Block2, Block3) at the number of
    arguments of its method, which counts the block itself.  Every message sent to the block looks its
    method up in the layout found by the same index.  The class is given here by its place in the
    list. *)
Definition block_class (s : scope) : res nat := get [0; 1; 2; 3] (S (length (sc_args s))).
