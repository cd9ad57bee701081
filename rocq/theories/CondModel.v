(** Sends of ifTrue:, ifFalse: and ifTrue:ifFalse: whose arguments are not block literals, in
    the AST interpreter: som/interpreter/ast/nodes/specialized/if_true_false.py and the part of
    message/uninitialized_node.py that makes these nodes. *)
From Coq Require Import ZArith Bool String Ascii List.
From Verif Require Import Base LexModel ParseModel BcModel BcInterp CtlModel.
Import ListNotations.
Open Scope nat_scope.
Open Scope list_scope.

Section Cond.
Context {S X : Type}.
Notation out := (out S X).
Variable fail : exn -> X.
(** The node at a send: as the parser makes it, an IfNode (with [_condition]), an
    IfTrueIfFalseNode, or an ordinary send (BinarySend, TernarySend, ...). *)
Inductive cnode := CUninit | CIf (condition : bool) | CIfElse | CSend.
Definition is_bool (v : value) : bool := match v with VTrue | VFalse => true | _ => false end.
(** can_specialize (if_true_false.py 39-45, 87-94) and specialize_node (47-57, 96-117), in the
    order of uninitialized_node.py 33-47; the loop nodes in front of them want other
    selectors (LoopModel). *)
Definition specialize (sel : text) (rcvr : value) (args : list (carg S X)) : cnode :=
  match args with
  | [_; _] => if is_bool rcvr && text_eqb sel (str "ifTrue:ifFalse:") then CIfElse else CSend
  | [_] => if is_bool rcvr && text_eqb sel (str "ifTrue:") then CIf true
           else if is_bool rcvr && text_eqb sel (str "ifFalse:") then CIf false
           else CSend
  | _ => CSend
  end.
(** _do_if (79-85): [rcvr is self._condition], then the assertion that it is the other one *)
Definition do_if (condition : bool) (rcvr : value) (branch : carg S X) (s : S) : out value :=
  match rcvr, condition with
  | VTrue, true | VFalse, false => invoke_or_answer branch s
  | VTrue, false | VFalse, true => Done VNil s
  | _, _ => Abrupt (fail AssertionError) s
  end.
(** _do_iftrue_iffalse (27-37) *)
Definition do_if_else (rcvr : value) (a b : carg S X) (s : S) : out value :=
  match rcvr with
  | VTrue => invoke_or_answer a s
  | VFalse => invoke_or_answer b s
  | _ => Abrupt (fail AssertionError) s
  end.
(** Executing the send: execute (if_true_false.py 17-22, 71-74) or execute_evaluated of the node made by the
    uninitialized node (uninitialized_node.py 28-30), receiver and arguments evaluated.
    [send] is what an ordinary send does (LkpModel); simplified: it answers alike whether it is
    the first execution or not. *)
Variable send : text -> value -> list (carg S X) -> S -> out value.
Definition exec_send (sel : text) (n : cnode) (rcvr : value) (args : list (carg S X)) (s : S) : cnode * out value :=
  let n' := match n with CUninit => specialize sel rcvr args | _ => n end in
  (n', match n', args with
       | CIf c, [a] => do_if c rcvr a s
       | CIfElse, [a; b] => do_if_else rcvr a b s
       | CSend, _ => send sel rcvr args s
       | _, _ => Abrupt (fail IndexError) s
       end).
End Cond.
