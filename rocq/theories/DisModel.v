(** The listing of the loaded classes that option -d writes: som/compiler/bc/disassembler.py,
    som/compiler/ast/disassembler.py, som/vm/universe.py 459-463, 476-479. *)
From Coq Require Import ZArith Bool String Ascii List Lia.
From Verif Require Import Base LexModel ParseModel BcModel BcInterp NtxModel.
Import ListNotations.
Open Scope nat_scope.
Open Scope list_scope.

(** What has been written to standard error, and the exception that ended the writing.
    error_print, error_println (universe.py 487-492).  Simplification: os.write writes all of
    its text and does not fail; texts are bytes. *)
Definition written_ := (text * option exn)%type.
Definition error_print (t : text) : written_ := (t, None).
Definition error_println (t : text) : written_ := (t ++ [newline], None).
Definition raise_ (e : exn) : written_ := ([], Some e).
Definition then_ (a b : written_) : written_ :=
  match a with (t, Some e) => (t, Some e) | (t, None) => (t ++ fst b, snd b) end.
Notation "a >> b" := (then_ a b) (at level 61, right associativity).
Definition use {A} (r : res A) (f : A -> written_) : written_ :=
  match r with Ok a => f a | Err e => raise_ e end.

(** Symbol.__str__ (vmobjects/symbol.py 53-54) *)
Definition sym_str (t : text) : text := "#"%char :: t.
(** str() of a nonnegative int *)
Definition nat_str (n : nat) : text := py_str (Z.of_nat n).

(** _sorted_bytecode_names, _BYTECODE_NAMES, bytecode_as_str (interpreter/bc/bytecodes.py
    310-330, 333): the names of the constants of the class Bytecodes, in capitals, in the
    order of their numbers. *)
Definition names : list string :=
  ["HALT"; "DUP"; "PUSH_FRAME"; "PUSH_FRAME_0"; "PUSH_FRAME_1"; "PUSH_FRAME_2";
   "PUSH_INNER"; "PUSH_INNER_0"; "PUSH_INNER_1"; "PUSH_INNER_2"; "PUSH_FIELD"; "PUSH_FIELD_0";
   "PUSH_FIELD_1"; "PUSH_BLOCK"; "PUSH_BLOCK_NO_CTX"; "PUSH_CONSTANT"; "PUSH_CONSTANT_0";
   "PUSH_CONSTANT_1"; "PUSH_CONSTANT_2"; "PUSH_0"; "PUSH_1"; "PUSH_NIL"; "PUSH_GLOBAL"; "POP";
   "POP_FRAME"; "POP_FRAME_0"; "POP_FRAME_1"; "POP_FRAME_2"; "POP_INNER"; "POP_INNER_0";
   "POP_INNER_1"; "POP_INNER_2"; "POP_FIELD"; "POP_FIELD_0"; "POP_FIELD_1"; "SEND_1";
   "SEND_2"; "SEND_3"; "SEND_N"; "SUPER_SEND"; "RETURN_LOCAL"; "RETURN_NON_LOCAL";
   "RETURN_SELF"; "RETURN_FIELD_0"; "RETURN_FIELD_1"; "RETURN_FIELD_2"; "INC"; "DEC";
   "INC_FIELD"; "INC_FIELD_PUSH"; "JUMP"; "JUMP_ON_TRUE_TOP_NIL"; "JUMP_ON_FALSE_TOP_NIL";
   "JUMP_ON_TRUE_POP"; "JUMP_ON_FALSE_POP"; "JUMP_ON_NOT_NIL_TOP_TOP"; "JUMP_ON_NIL_TOP_TOP";
   "JUMP_ON_NOT_NIL_POP"; "JUMP_ON_NIL_POP"; "JUMP_BACKWARD"; "JUMP2"; "JUMP2_ON_TRUE_TOP_NIL";
   "JUMP2_ON_FALSE_TOP_NIL"; "JUMP2_ON_TRUE_POP"; "JUMP2_ON_FALSE_POP";
   "JUMP2_ON_NOT_NIL_TOP_TOP"; "JUMP2_ON_NIL_TOP_TOP"; "JUMP2_ON_NOT_NIL_POP";
   "JUMP2_ON_NIL_POP"; "JUMP2_BACKWARD"; "Q_SUPER_SEND_1"; "Q_SUPER_SEND_2"; "Q_SUPER_SEND_3";
   "Q_SUPER_SEND_N"; "PUSH_LOCAL"; "PUSH_ARGUMENT"; "POP_LOCAL"; "POP_ARGUMENT"; "INVALID"]%string.
Definition bytecode_as_str (n : nat) : res text :=
  match nth_error names n with Some s => Ok (str s) | None => Err AssertionError end.
(** bytecode_length (bytecodes.py 304-307) *)
Definition bytecode_length (n : nat) : res nat :=
  match of_num n with
  | Some B_invalid | None => Err AssertionError
  | Some b => Ok (blen b)
  end.
(** compute_offset (compiler/bc/bytecode_generator.py 267-268) *)
Definition compute_offset (b1 b2 : nat) : nat := b1 + b2 * 256.

(** What the listing shows of the objects of the VM: str() of a literal (or the exception
    str() ends with), the name of its class as get_class and get_name answer it ([None]: no
    class, or an exception), str() of a block method (by the number of the block literal,
    method.py 39-44), and the names of the fields of the class of the method, if the method
    has a class (disassembler.py 112-117, clazz.py get_instance_field_name 144-145). *)
Record objects := Objects {
  o_str : value -> res text;
  o_class : value -> option text;
  o_meth : nat -> text;
  o_method_class : option text;
  o_fields : option (list text) }.

Section Dump.
Variable ob : objects.
(** str() of a literal; str() of its class, by disassembler.py 131-138 *)
Definition lit_str (l : literal) : res text :=
  match l with LV v => o_str ob v | LS t => Ok (sym_str t) | LM m => Ok (o_meth ob (me_label m)) end.
Definition lit_class (l : literal) : text :=
  match (match l with LV v => o_class ob v | LS t => o_class ob (sym_value t)
                    | LM _ => o_method_class ob end) with
  | Some n => sym_str n
  | None => str "not yet supported"
  end.

(** get_bytecode (method_bc.py 132-135): an assertion on the index. *)
Definition get_bytecode (bytes : list nat) (i : nat) : res nat :=
  match nth_error bytes i with Some n => Ok n | None => Err AssertionError end.
(** get_constant (method_bc.py 115-117) *)
Definition get_constant {A} (bytes : list nat) (lits : list A) (b : nat) : res A :=
  i <- get_bytecode bytes (b + 1) ;;
  match nth_error lits i with Some l => Ok l | None => Err IndexError end.

(** dump_bytecode (disassembler.py 50-200).  [blocks] has dump_method for each of the
    literals.  The second tests for push_inner, pop_inner, push_frame and pop_frame (173-186)
    come after the first ones and are never reached. *)
Definition dump_bytecode (bytes : list nat) (lits : list literal) (blocks : list (text -> written_))
  (b : nat) (indent : text) : written_ :=
  let arg1 := use (get_bytecode bytes (b + 1)) in
  let arg2 := use (get_bytecode bytes (b + 2)) in
  let constant := use (get_constant bytes lits b) in
  (if b <? 10 then error_print (str " ") else error_print []) >>
  (if b <? 100 then error_print (str " ") else error_print []) >>
  error_print (str " " ++ nat_str b ++ str ":") >>
  use (get_bytecode bytes b) (fun bytecode =>
  use (bytecode_as_str bytecode) (fun name =>
  error_print (name ++ str "  ") >>
  use (bytecode_length bytecode) (fun len =>
  if len =? 1 then error_println [] else
  match of_num bytecode with
  | Some (B_push_local | B_pop_local) =>
      arg1 (fun i => arg2 (fun c =>
      error_println (str "local: " ++ nat_str i ++ str ", context: " ++ nat_str c)))
  | Some (B_push_argument | B_pop_argument) =>
      arg1 (fun i => arg2 (fun c =>
      error_println (str "argument: " ++ nat_str i ++ str ", context " ++ nat_str c)))
  | Some (B_push_frame | B_pop_frame) =>
      arg1 (fun i => error_println (str "idx: " ++ nat_str i))
  | Some (B_push_inner | B_pop_inner) =>
      arg1 (fun i => arg2 (fun c =>
      error_println (str "idx: " ++ nat_str i ++ str ", context: " ++ nat_str c)))
  | Some (B_push_frame_0 | B_push_frame_1 | B_push_frame_2
         | B_pop_frame_0 | B_pop_frame_1 | B_pop_frame_2
         | B_push_inner_0 | B_push_inner_1 | B_push_inner_2
         | B_pop_inner_0 | B_pop_inner_1 | B_pop_inner_2) =>
      error_println []
  | Some (B_push_field | B_pop_field | B_inc_field_push | B_inc_field) =>
      use (match o_fields ob with
           | Some fs => i <- get_bytecode bytes (b + 1) ;;
                        match nth_error fs i with Some f => Ok (sym_str f) | None => Err IndexError end
           | None => Ok (str "Holder Not Set")
           end) (fun field_name =>
      arg1 (fun i => arg2 (fun c =>
      error_println (str "(index: " ++ nat_str i ++ str ", context " ++ nat_str c
                     ++ str ") field: " ++ field_name))))
  | Some B_push_block =>
      arg1 (fun i => error_print (str "block: (index: " ++ nat_str i ++ str ") ")) >>
      use (get_constant bytes blocks b) (fun dump => dump (indent ++ str "	"))
  | Some B_push_constant =>
      constant (fun l => arg1 (fun i => use (lit_str l) (fun s =>
      error_println (str "(index: " ++ nat_str i ++ str ") value: (" ++ s ++ str " class: "
                     ++ lit_class l ++ str ") "))))
  | Some B_push_global =>
      arg1 (fun i => constant (fun l => use (lit_str l) (fun s =>
      error_println (str "(index: " ++ nat_str i ++ str ") value: " ++ s))))
  | Some (B_send_1 | B_send_2 | B_send_3 | B_send_n | B_super_send
         | B_q_super_send_1 | B_q_super_send_2 | B_q_super_send_3 | B_q_super_send_n) =>
      arg1 (fun i => constant (fun l => use (lit_str l) (fun s =>
      error_println (str "(index: " ++ nat_str i ++ str ") signature: " ++ s))))
  | Some B_return_non_local =>
      arg1 (fun c => error_println (str "context: " ++ nat_str c))
  | _ =>
      if is_jump bytecode then
        arg1 (fun x => arg2 (fun y =>
        let offset := compute_offset x y in
        let target := if (bytecode =? num B_jump_backward) || (bytecode =? num B_jump2_backward)
                      then (Z.of_nat b - Z.of_nat offset)%Z else (Z.of_nat b + Z.of_nat offset)%Z in
        error_println (str "(jump offset: " ++ nat_str offset ++ str " -> jump target: "
                       ++ py_str target ++ str ")")))
      else error_println (str "<incorrect bytecode>")
  end))).

(** The loop of dump_method (disassembler.py 40-45); every round goes forward, so a method
    has no more rounds than bytes. *)
Fixpoint dump_loop (bytes : list nat) (dump_bc : nat -> written_) (indent : text) (fuel b : nat)
  : written_ :=
  match fuel with
  | O => raise_ OutOfFuel
  | S fuel =>
      if b <? length bytes then
        error_print indent >> dump_bc b >>
        use (get_bytecode bytes b) (fun n => use (bytecode_length n) (fun len =>
        dump_loop bytes dump_bc indent fuel (b + len)))
      else error_print []
  end.

(** dump_method (disassembler.py 26-47).  A trivial method has no get_number_of_bytecodes
    (method_trivial.py 23-39); a literal that is no method has no get_number_of_locals. *)
Fixpoint dump_method (m : meth) (indent : text) {struct m} : written_ :=
  match m with
  | Meth _ bytes lits locals _ _ max_stack tr =>
      let blocks := map (fun l => match l with
                                  | LM m => dump_method m
                                  | _ => fun _ => error_println (str "(") >> raise_ AttributeError
                                  end) lits in
      error_println (str "(") >>
      match tr with
      | Some _ => raise_ AttributeError
      | None =>
          error_println (indent ++ str "<" ++ nat_str (length locals) ++ str " locals, "
                         ++ py_str max_stack ++ str " stack, " ++ nat_str (length bytes)
                         ++ str " bc_count>") >>
          dump_loop bytes (fun b => dump_bytecode bytes lits blocks b indent) indent
                    (S (length bytes)) 0 >>
          error_println (indent ++ str ")")
      end
  end.
End Dump.

(** dump (disassembler.py 13-23) over the invokables of a class, in the order of its table:
    the signature of each, and its method unless it is a primitive. *)
Fixpoint dump (ob : objects) (class : text) (invokables : list (text * option meth)) : written_ :=
  match invokables with
  | [] => error_print []
  | (signature, inv) :: rest =>
      error_print (sym_str class ++ str ">>" ++ sym_str signature ++ str " = ") >>
      match inv with
      | None => error_println (str "<primitive>")
      | Some m => dump_method ob m (str "	")
      end >>
      dump ob class rest
  end.
(** dump of the AST interpreter (compiler/ast/disassembler.py 4-20) *)
Definition dump_method_ast (indent : text) : written_ :=
  error_println (str "(") >> error_println (indent ++ indent ++ str "TODO") >>
  error_println (indent ++ str ")").
Fixpoint dump_ast (class : text) (invokables : list (text * bool)) : written_ :=
  match invokables with
  | [] => error_print []
  | (signature, primitive) :: rest =>
      error_print (sym_str class ++ str ">>" ++ sym_str signature ++ str " = ") >>
      (if primitive then error_println (str "<primitive>") else dump_method_ast (str "	")) >>
      dump_ast class rest
  end.
