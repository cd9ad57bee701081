(** Model of the counting loops: src/som/primitives/bc/integer_primitives.py and
    src/som/interpreter/ast/nodes/specialized/{to_do,to_by_do,down_to_do}_node.py.
    The evaluation of the block ([block_method.invoke_2(block, Integer(i))]) is an
    arbitrary fallible state transformer [blk]; a non-local return out of the block is
    one of its failures.  Loops carry a recursion bound [fuel]. *)
From Coq Require Import ZArith Bool String List Floats.SpecFloat.
From Verif Require Import Base NumModel.
Import ListNotations.
Open Scope Z_scope.
Open Scope list_scope.

(** Python's int <= float and int >= float: exact in Python; RPython converts the int
    to a double. *)
Definition exact_le (z : Z) (f : spec_float) : bool :=
  match f with
  | S754_zero _ => z <=? 0
  | S754_infinity s => negb s
  | S754_nan => false
  | S754_finite s m e =>
      if 0 <=? e then z <=? cond_Zopp s (Zpos m * 2 ^ e)
      else z * 2 ^ (- e) <=? cond_Zopp s (Zpos m)
  end.
Definition exact_ge (z : Z) (f : spec_float) : bool :=
  match f with
  | S754_zero _ => 0 <=? z
  | S754_infinity s => s
  | S754_nan => false
  | S754_finite s m e =>
      if 0 <=? e then cond_Zopp s (Zpos m * 2 ^ e) <=? z
      else cond_Zopp s (Zpos m) <=? z * 2 ^ (- e)
  end.
Definition int_le_float (m : mode) (z : Z) (f : spec_float) : bool :=
  match m with Translated => fle (float_of_Z z) f | Hosted => exact_le z f end.
Definition int_ge_float (m : mode) (z : Z) (f : spec_float) : bool :=
  match m with Translated => fle f (float_of_Z z) | Hosted => exact_ge z f end.

Section Loops.
  Context {St : Type}.
  Variable m : mode.
  Variable blk : value -> St -> res St.

  (** [while cond(i): block(Integer(i)); i += by].  The addition is not overflow-checked. *)
  Fixpoint while_loop (cond : Z -> bool) (by_increment : Z) (fuel : nat) (i : Z) (s : St)
    : res St :=
    match fuel with
    | O => Err OutOfFuel
    | S k =>
        if cond i then
          s' <- blk (VInt i) s ;;
          while_loop cond by_increment k (unchecked m (i + by_increment)) s'
        else Ok s
    end.

  (** bc/integer_primitives.py 61-68, 71-78 *)
  Definition to_do_int fuel (i by_increment top : Z) :=
    while_loop (fun i => i <=? top) by_increment fuel i.
  Definition to_do_double fuel (i by_increment : Z) (top : spec_float) :=
    while_loop (fun i => int_le_float m i top) by_increment fuel i.
  (** 131-138, 141-148: [i -= by_increment] *)
  Definition down_to_do_int fuel (i by_increment bottom : Z) :=
    while_loop (fun i => bottom <=? i) (- by_increment) fuel i.
  Definition down_to_do_double fuel (i by_increment : Z) (bottom : spec_float) :=
    while_loop (fun i => int_ge_float m i bottom) (- by_increment) fuel i.

  (** _to_do 81-90: answers the receiver and the final state. *)
  Definition bc_to_do fuel (rcvr limit : value) (s : St) : res (value * St) :=
    i <- embedded_integer rcvr ;;
    s' <- match limit with
          | VDbl d => to_do_double fuel i 1 d s
          | _ => top <- embedded_integer limit ;; to_do_int fuel i 1 top s
          end ;;
    Ok (rcvr, s').
  (** _to_by_do 93-128 *)
  Definition bc_to_by_do fuel (rcvr limit by_increment : value) (s : St) : res (value * St) :=
    i <- embedded_integer rcvr ;;
    s' <- match limit with
          | VDbl d => by_ <- embedded_integer by_increment ;; to_do_double fuel i by_ d s
          | _ => by_ <- embedded_integer by_increment ;;
                 top <- embedded_integer limit ;; to_do_int fuel i by_ top s
          end ;;
    Ok (rcvr, s').
  (** _down_to_do 151-160 *)
  Definition bc_down_to_do fuel (rcvr limit : value) (s : St) : res (value * St) :=
    i <- embedded_integer rcvr ;;
    s' <- match limit with
          | VDbl d => down_to_do_double fuel i 1 d s
          | _ => bottom <- embedded_integer limit ;; down_to_do_int fuel i 1 bottom s
          end ;;
    Ok (rcvr, s').

  (** * The loop nodes of the AST interpreter *)
  (** What a send of to:do: (to:by:do:, downTo:do:) with a block argument has been
      rewritten to: uninitialized_node.py 26-75. *)
  Inductive loop_node := LUninitialized | LIntInt | LIntDouble | LGeneric.
  Inductive loop_sel := ToDo | ToByDo | DownToDo.

  Definition get_embedded_double (v : value) : res spec_float :=
    match v with VDbl d => Ok d | _ => Err AttributeError end.

  (** The [_do_loop] / [_to_by_loop] of the specialised nodes: to_do_node.py 53-62, 97-106,
      to_by_do_node.py 55-65, 102-112, down_to_do_node.py 25-34, 69-78.  [step] is only
      used by to:by:do:. *)
  Definition int_int_loop fuel sel (rcvr limit step : value) (s : St) : res St :=
    i <- embedded_integer rcvr ;;
    top <- embedded_integer limit ;;
    match sel with
    | ToDo => while_loop (fun i => i <=? top) 1 fuel i s
    | ToByDo => by_ <- embedded_integer step ;; while_loop (fun i => i <=? top) by_ fuel i s
    | DownToDo => while_loop (fun i => top <=? i) (-1) fuel i s
    end.
  Definition int_double_loop fuel sel (rcvr limit step : value) (s : St) : res St :=
    i <- embedded_integer rcvr ;;
    top <- get_embedded_double limit ;;
    match sel with
    | ToDo => while_loop (fun i => int_le_float m i top) 1 fuel i s
    | ToByDo => by_ <- embedded_integer step ;;
                while_loop (fun i => int_le_float m i top) by_ fuel i s
    | DownToDo => while_loop (fun i => int_ge_float m i top) (-1) fuel i s
    end.

  (** can_specialize: to_do_node.py 64-72, 108-116, to_by_do_node.py 67-76, 114-123,
      down_to_do_node.py 36-44, 80-88, tried in the order of uninitialized_node.py
      33-42.  The last argument is a block literal, hence an AstBlock. *)
  Definition specialize sel (rcvr limit step : value) : loop_node :=
    let step_ok := match sel, step with
                   | ToByDo, VInt _ => true | ToByDo, _ => false | _, _ => true end in
    match rcvr, limit with
    | VInt _, VInt _ => if step_ok then LIntInt else LGeneric
    | VInt _, VDbl _ => if step_ok then LIntDouble else LGeneric
    | _, _ => LGeneric
    end.

  (** Executing the node once: [execute] of the node (to_do_node.py 22-31) or of the
      uninitialized node (uninitialized_node.py 28-30).  [library] is what an ordinary
      send does: it finds the method of the core library, which is not part of the
      repository. *)
  Definition ast_loop (library : value -> value -> value -> St -> res (value * St))
      fuel sel (node : loop_node) (rcvr limit step : value) (s : St)
    : res (loop_node * (value * St)) :=
    let node' := match node with LUninitialized => specialize sel rcvr limit step | n => n end in
    r <- match node' with
         | LIntInt => s' <- int_int_loop fuel sel rcvr limit step s ;; Ok (rcvr, s')
         | LIntDouble => s' <- int_double_loop fuel sel rcvr limit step s ;; Ok (rcvr, s')
         | _ => library rcvr limit step s
         end ;;
    Ok (node', r).
End Loops.
