(** What a user expects of the variables of a method activation, independent of slots. *)
From Coq Require Import ZArith Bool List.
From Verif Require Import Base FrameModel.
Import ListNotations.
Local Open Scope nat_scope.

(** The variables of a method or block: the receiver, the arguments, the locals. *)
Inductive variable := Self | Arg (i : nat) | Local (i : nat).

Definition declared (s : scope) (x : variable) : Prop :=
  match x with
  | Self => True
  | Arg i => i < length (sc_args s)
  | Local i => i < length (sc_locals s)
  end.

(** A nested block uses the variable. *)
Definition used_by_nested_block (s : scope) (x : variable) : Prop :=
  match x with
  | Self => sc_self s = true
  | Arg i => nth_error (sc_args s) i = Some true
  | Local i => nth_error (sc_locals s) i = Some true
  end.

(** Where the compiler puts a variable.  (The receiver is kept in the frame and, when there
    is an Inner, also there, under the same index; a variable only used by the activation
    itself is read from the frame.) *)
Definition place (s : scope) (x : variable) : option slot :=
  let l := prepare_frame s in
  match x with
  | Self => Some {| s_inner := sc_self s; s_idx := FRAME_AND_INNER_RCVR_IDX |}
  | Arg i => nth_error (ly_args l) i
  | Local i => nth_error (ly_locals l) i
  end.

(** The AST interpreter reads the receiver of the activation itself always from the frame
    (compiler/ast/variable.py 138-145, Argument.get_read_node). *)
Definition ast_place (s : scope) (x : variable) : option slot :=
  match x with
  | Self => Some {| s_inner := false; s_idx := FRAME_AND_INNER_RCVR_IDX |}
  | _ => place s x
  end.

(** The value a variable has right after entering with this receiver and these
    arguments. *)
Definition initially (rcvr : value) (args : list value) (x : variable) : option value :=
  match x with
  | Self => Some rcvr
  | Arg i => nth_error args i
  | Local _ => Some VNil
  end.

(** An entry point that takes this many arguments (without the receiver). *)
Definition ast_accepts (e : ast_entry) (n : nat) : Prop :=
  match e with AstInvoke1 => n = 0 | AstInvoke2 => n = 1 | AstInvoke3 => n = 2 | AstInvokeArgs => True end.
Definition bc_accepts (e : bc_entry) (n : nat) : Prop :=
  match e with BcInvoke1 => n = 0 | BcInvoke2 => n = 1 | BcInvoke3 => n = 2 | BcInvokeN _ _ => True end.

(** A run of assignments, and the value a variable has after them. *)
Fixpoint latest (rcvr : value) (args : list value) (l : list (variable * value)) (x : variable)
  : option value :=
  match l with
  | [] => initially rcvr args x
  | (y, v) :: rest =>
      if (match x, y with
          | Self, Self => true
          | Arg i, Arg j => i =? j
          | Local i, Local j => i =? j
          | _, _ => false
          end)
      then Some v else latest rcvr args rest x
  end.

(** Performing them, the last one first in the list. *)
Fixpoint assign_all (where_ : variable -> option slot)
  (write : list cell -> slot -> value -> res (list cell))
  (f : list cell) (l : list (variable * value)) : res (list cell) :=
  match l with
  | [] => Ok f
  | (y, v) :: rest =>
      f' <- assign_all where_ write f rest ;;
      match where_ y with Some sl => write f' sl v | None => Err KeyError end
  end.

(** Static nesting at run time.  [blocks n] is the context the block object [n] was created
    in, the Inner of the enclosing activation.  An activation chain lists the Inners of the
    enclosing activations, innermost first, and ends in a method. *)
Inductive chain (blocks : nat -> option (list value)) : value -> list (list value) -> Prop :=
| chain_method r : chain blocks r []
| chain_block n outer r rest :
    blocks n = Some outer -> nth_error outer 1 = Some r -> chain blocks r rest ->
    chain blocks (VObj n) (outer :: rest).

(** interpreter/bc/frame.py 178-185 get_block_at and ast/nodes/contextual_node.py 21-28
    determine_block: follow the receivers outwards. *)
Fixpoint block_at (blocks : nat -> option (list value)) (block : value) (steps : nat) : res value :=
  match steps with
  | 0 => Ok block
  | S k =>
      match block with
      | VObj n =>
          match blocks n with
          | Some outer =>
              r <- get_from_outer outer FRAME_AND_INNER_RCVR_IDX ;; block_at blocks r k
          | None => Err TypeError
          end
      | _ => Err AttributeError
      end
  end.

(** Reading a variable with the given index at context level [level] > 0 from an activation
    whose receiver is [rcvr]: interpreter/bc/interpreter.py 183-193 (push_inner) and
    NonLocalVariableReadNode, ast/nodes/variable_node.py 124-128. *)
Definition read_outer (blocks : nat -> option (list value)) (rcvr : value) (level idx : nat)
  : res value :=
  b <- block_at blocks rcvr (level - 1) ;;
  match b with
  | VObj n => match blocks n with Some outer => get_from_outer outer idx | None => Err TypeError end
  | _ => Err AttributeError
  end.
