(** Invoking primitives: som/vmobjects/primitive.py, and the primitives each class gets. *)
From Coq Require Import ZArith Bool String List.
From Verif Require Import Base TxtModel.
Import ListNotations.
Open Scope list_scope.

(** UnaryPrimitive, BinaryPrimitive, TernaryPrimitive (primitive.py 79-121), and Primitive, which
    is _AstPrimitive (52-61) or _BcPrimitive (64-76). *)
Inductive shape := Unary | Binary | Ternary | Nary.

Section Prims.
(** The world a primitive reads and changes, and printing a line on it. *)
Context {W : Type}.
Variable say : string -> W -> W.
(** What a primitive does with the receiver and the arguments. *)
Definition effect := list value -> W -> res (value * W).
(** [p_fn] is None for an empty primitive (149-151): the method says primitive, but the VM has
    none for it. *)
Record prim := { p_sig : string; p_shape : shape; p_fn : option effect }.
(** primitive.py 149-151 *)
Definition empty_primitive (sig : string) : prim := {| p_sig := sig; p_shape := Nary; p_fn := None |}.
Definition warning (p : prim) : string :=
  ("Warning: undefined primitive #" ++ p_sig p ++ " called")%string.

(** invoke_1, invoke_2, invoke_3 (86-88, 101-103, 116-118).  The other classes have no method of
    that name: AttributeError when run by Python (RPython gives such a call no meaning). *)
Definition run (p : prim) (args : list value) (w : W) : res (value * W) :=
  match p_fn p with Some f => f args w | None => Err TypeError end.
Definition invoke_1 (p : prim) (r : value) (w : W) : res (value * W) :=
  match p_shape p with Unary => run p [r] w | _ => Err AttributeError end.
Definition invoke_2 (p : prim) (r a : value) (w : W) : res (value * W) :=
  match p_shape p with Binary => run p [r; a] w | _ => Err AttributeError end.
Definition invoke_3 (p : prim) (r a b : value) (w : W) : res (value * W) :=
  match p_shape p with Ternary => run p [r; a; b] w | _ => Err AttributeError end.
(** What a call hands back: an object or Python's None. *)
Definition obj (x : res (value * W)) : res (option value * W) :=
  match x with Ok (v, w) => Ok (Some v, w) | Err e => Err e end.
(** invoke_args (59-61); _empty_invoke_ast (124-129) prints and answers None. *)
Definition invoke_args (p : prim) (r : value) (args : list value) (w : W) : res (option value * W) :=
  match p_shape p with
  | Nary => match p_fn p with
            | Some f => obj (f (r :: args) w)
            | None => Ok (None, say (warning p) w)
            end
  | _ => Err AttributeError
  end.
(** invoke_n (71-73), on the operand stack, top first.  A primitive takes the receiver and the
    arguments off and leaves its answer, as to:by:do: does (bc/integer_primitives.py 93-128), the
    only one there is; _empty_invoke_bc (132-138) prints and leaves the stack as it is. *)
Definition invoke_n (p : prim) (stk : list value) (w : W) : res (list value * W) :=
  match p_shape p with
  | Nary => match p_fn p with
            | Some f => let n := number_of_signature_arguments (p_sig p) in
                        match f (rev (firstn n stk)) w with
                        | Ok (v, w) => Ok (v :: skipn n stk, w)
                        | Err e => Err e
                        end
            | None => Ok (stk, say (warning p) w)
            end
  | _ => Err AttributeError
  end.

(** * Sends that found the primitive [p] *)
(** AST: UnarySend, BinarySend, TernarySend or NArySend by the number of argument expressions
    (message/uninitialized_node.py 49-80), then dispatch_1, _2, _3 or _args
    (dispatch.py 46-68, 86-96). *)
Definition ast_send (p : prim) (r : value) (args : list value) (w : W) : res (option value * W) :=
  match args with
  | [] => obj (invoke_1 p r w)
  | [a] => obj (invoke_2 p r a w)
  | [a; b] => obj (invoke_3 p r a b w)
  | _ => invoke_args p r args w
  end.
Definition push (x : res (value * W)) (stk : list value) : res (list value * W) :=
  match x with Ok (v, w) => Ok (v :: stk, w) | Err e => Err e end.
(** Bytecodes: send_1, send_2, send_3 or send_n by the number of arguments of the selector
    (bc/bytecode_generator.py 148-160), run by bc/interpreter.py 392-461. *)
Definition bc_send (p : prim) (stk : list value) (w : W) : res (list value * W) :=
  match number_of_signature_arguments (p_sig p), stk with
  | 1%nat, r :: stk => push (invoke_1 p r w) stk
  | 2%nat, a :: r :: stk => push (invoke_2 p r a w) stk
  | 3%nat, b :: a :: r :: stk => push (invoke_3 p r a b w) stk
  | _, _ => invoke_n p stk w
  end.
(** perform: and perform:withArguments: (object_primitives.py 60-62, 70-83) once the primitive is
    found; [elements] is the content of the array. *)
Definition perform (p : prim) (r : value) (w : W) : res (value * W) := invoke_1 p r w.
Definition perform_with_arguments (p : prim) (r : value) (elements : list value) (w : W) : res (value * W) :=
  match elements with
  | [] => invoke_1 p r w
  | [a] => invoke_2 p r a w
  | [a; b] => invoke_3 p r a b w
  | _ => Err PyException
  end.
End Prims.
Arguments prim : clear implicits.

(** * The primitives of the VM *)
Inductive side := Instance | ClassSide.
Definition row := (side * shape * string)%type.
Inductive interp := Ast | Bc.
(** primitives/array_primitives.py 100-109 *)
Definition array_prims : list row :=
  [(Instance, Binary, "at:"); (Instance, Ternary, "at:put:"); (Instance, Unary, "length");
   (Instance, Unary, "copy"); (ClassSide, Binary, "new:"); (Instance, Binary, "doIndexes:");
   (Instance, Binary, "do:"); (Instance, Binary, "putAll:")]%string.
(** primitives/block_primitives.py 65-67 *)
Definition block_prims : list row :=
  [(Instance, Binary, "whileTrue:"); (Instance, Binary, "whileFalse:"); (Instance, Nary, "restart")]%string.
(** primitives/class_primitives.py 28-32 *)
Definition class_prims : list row :=
  [(Instance, Unary, "new"); (Instance, Unary, "name"); (Instance, Unary, "superclass");
   (Instance, Unary, "methods"); (Instance, Unary, "fields")]%string.
(** primitives/double_primitives.py 114-141 *)
Definition double_prims : list row :=
  [(Instance, Unary, "asString"); (Instance, Unary, "round"); (Instance, Unary, "asInteger");
   (Instance, Unary, "sqrt"); (Instance, Binary, "+"); (Instance, Binary, "-");
   (Instance, Binary, "*"); (Instance, Binary, "//"); (Instance, Binary, "%");
   (Instance, Binary, "="); (Instance, Binary, "<"); (Instance, Binary, "<=");
   (Instance, Binary, ">"); (Instance, Binary, ">="); (Instance, Binary, "<>");
   (Instance, Binary, "~="); (Instance, Binary, "max:"); (Instance, Binary, "min:");
   (Instance, Unary, "sin"); (Instance, Unary, "cos"); (ClassSide, Unary, "PositiveInfinity");
   (ClassSide, Binary, "fromString:")]%string.
(** primitives/false_primitives.py 40-49 *)
Definition false_prims : list row :=
  [(Instance, Unary, "not"); (Instance, Binary, "and:"); (Instance, Binary, "&&");
   (Instance, Binary, "or:"); (Instance, Binary, "||"); (Instance, Binary, "ifFalse:");
   (Instance, Ternary, "ifTrue:ifFalse:")]%string.
(** primitives/integer_primitives.py 198-238 *)
Definition integer_prims : list row :=
  [(Instance, Unary, "asString"); (Instance, Unary, "asDouble"); (Instance, Unary, "as32BitSignedValue");
   (Instance, Unary, "as32BitUnsignedValue"); (Instance, Unary, "sqrt"); (Instance, Binary, "+");
   (Instance, Binary, "-"); (Instance, Binary, "*"); (Instance, Binary, "//");
   (Instance, Binary, "/"); (Instance, Binary, "%"); (Instance, Binary, "rem:");
   (Instance, Binary, "&"); (Instance, Binary, "=="); (Instance, Binary, "=");
   (Instance, Binary, "<"); (Instance, Binary, "<="); (Instance, Binary, ">");
   (Instance, Binary, ">="); (Instance, Binary, "<>"); (Instance, Binary, "~=");
   (Instance, Binary, "<<"); (Instance, Binary, "bitXor:"); (Instance, Binary, ">>>");
   (Instance, Unary, "abs"); (Instance, Binary, "max:"); (Instance, Binary, "min:");
   (Instance, Binary, "to:"); (ClassSide, Binary, "fromString:")]%string.
(** primitives/object_primitives.py 88-107 *)
Definition object_prims : list row :=
  [(Instance, Binary, "=="); (Instance, Unary, "hashcode"); (Instance, Unary, "objectSize");
   (Instance, Binary, "instVarAt:"); (Instance, Ternary, "instVarAt:put:"); (Instance, Binary, "instVarNamed:");
   (Instance, Unary, "halt"); (Instance, Unary, "class"); (Instance, Binary, "perform:");
   (Instance, Ternary, "perform:inSuperclass:"); (Instance, Ternary, "perform:withArguments:")]%string.
(** primitives/string_primitives.py 93-105 *)
Definition string_prims : list row :=
  [(Instance, Binary, "charAt:"); (Instance, Binary, "concatenate:"); (Instance, Unary, "asSymbol");
   (Instance, Unary, "length"); (Instance, Binary, "="); (Instance, Ternary, "primSubstringFrom:to:");
   (Instance, Unary, "hashcode"); (Instance, Unary, "isWhiteSpace"); (Instance, Unary, "isLetters");
   (Instance, Unary, "isDigits")]%string.
(** primitives/symbol_primitives.py 23-24 *)
Definition symbol_prims : list row :=
  [(Instance, Unary, "asString"); (Instance, Binary, "=")]%string.
(** primitives/system_primitives.py 96-112 *)
Definition system_prims : list row :=
  [(Instance, Binary, "load:"); (Instance, Binary, "exit:"); (Instance, Binary, "hasGlobal:");
   (Instance, Binary, "global:"); (Instance, Ternary, "global:put:"); (Instance, Binary, "printString:");
   (Instance, Unary, "printNewline"); (Instance, Binary, "errorPrint:"); (Instance, Binary, "errorPrintln:");
   (Instance, Unary, "time"); (Instance, Unary, "ticks"); (Instance, Unary, "fullGC");
   (Instance, Binary, "loadFile:")]%string.
(** primitives/true_primitives.py 40-50 *)
Definition true_prims : list row :=
  [(Instance, Unary, "not"); (Instance, Binary, "or:"); (Instance, Binary, "||");
   (Instance, Binary, "and:"); (Instance, Binary, "&&"); (Instance, Binary, "ifTrue:");
   (Instance, Binary, "ifFalse:"); (Instance, Ternary, "ifTrue:ifFalse:")]%string.
(** primitives/invokable_primitives.py 15-16 *)
Definition invokable_prims : list row :=
  [(Instance, Unary, "holder"); (Instance, Unary, "signature")]%string.
(** primitives/ast/method_primitives.py 24-24 *)
Definition ast_method_prims : list row :=
  [(Instance, Nary, "invokeOn:with:")]%string.
(** primitives/ast/primitive_primitives.py 23-23 *)
Definition ast_primitive_prims : list row :=
  [(Instance, Nary, "invokeOn:with:")]%string.
(** primitives/bc/integer_primitives.py 166-168 *)
Definition bc_integer_prims : list row :=
  [(Instance, Ternary, "to:do:"); (Instance, Ternary, "downTo:do:"); (Instance, Nary, "to:by:do:")]%string.
(** primitives_for_class (known.py 85-90) with the subclasses in primitives/ast and primitives/bc:
    they add nothing but what is listed here. *)
Definition provided (i : interp) (cls : string) : list row :=
  (if cls =? "Array" then array_prims
   else if cls =? "Block" then block_prims
   else if cls =? "Class" then class_prims
   else if cls =? "Double" then double_prims
   else if cls =? "False" then false_prims
   else if cls =? "Integer" then (integer_prims ++ match i with Bc => bc_integer_prims | Ast => [] end)%list
   else if cls =? "Method" then (invokable_prims ++ match i with Ast => ast_method_prims | Bc => [] end)%list
   else if cls =? "Object" then object_prims
   else if cls =? "Primitive" then (invokable_prims ++ match i with Ast => ast_primitive_prims | Bc => [] end)%list
   else if cls =? "String" then string_prims
   else if cls =? "Symbol" then symbol_prims
   else if cls =? "System" then system_prims
   else if cls =? "True" then true_prims
   (* universe.py 400-415 with block_bc.py 59-66 *)
   else if cls =? "Block1" then [(Instance, Unary, "value")]
   else if cls =? "Block2" then [(Instance, Binary, "value:")]
   else if cls =? "Block3" then [(Instance, Ternary, "value:with:")]
   else [])%string.
