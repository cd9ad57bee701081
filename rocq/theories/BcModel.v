(** The bytecode compiler and the bytecode interpreter:
    som/interpreter/bc/bytecodes.py, som/compiler/bc/bytecode_generator.py,
    som/compiler/bc/method_generation_context.py, som/compiler/method_generation_context.py,
    the parts of som/compiler/bc/parser.py that call them, the inlining half of
    som/vmobjects/method_bc.py and som/vmobjects/method_trivial.py, and the interpreter
    loop som/interpreter/bc/interpreter.py.

    Objects with identity are modelled by values: a local variable is its declaration (its
    [source], a number), a block method carries the number of its block literal. *)
From Coq Require Import ZArith Bool String Ascii List Lia.
From Verif Require Import Base LexModel ParseModel.
Import ListNotations.
Open Scope nat_scope.
Open Scope list_scope.

(** * Bytecodes (bytecodes.py 8-109: each is one more than the one before) *)
Inductive bc :=
| B_halt | B_dup | B_push_frame | B_push_frame_0 | B_push_frame_1 | B_push_frame_2 |
B_push_inner | B_push_inner_0 | B_push_inner_1 | B_push_inner_2 | B_push_field | B_push_field_0
| B_push_field_1 | B_push_block | B_push_block_no_ctx | B_push_constant | B_push_constant_0 |
B_push_constant_1 | B_push_constant_2 | B_push_0 | B_push_1 | B_push_nil | B_push_global | B_pop
| B_pop_frame | B_pop_frame_0 | B_pop_frame_1 | B_pop_frame_2 | B_pop_inner | B_pop_inner_0 |
B_pop_inner_1 | B_pop_inner_2 | B_pop_field | B_pop_field_0 | B_pop_field_1 | B_send_1 |
B_send_2 | B_send_3 | B_send_n | B_super_send | B_return_local | B_return_non_local |
B_return_self | B_return_field_0 | B_return_field_1 | B_return_field_2 | B_inc | B_dec |
B_inc_field | B_inc_field_push | B_jump | B_jump_on_true_top_nil | B_jump_on_false_top_nil |
B_jump_on_true_pop | B_jump_on_false_pop | B_jump_on_not_nil_top_top | B_jump_on_nil_top_top |
B_jump_on_not_nil_pop | B_jump_on_nil_pop | B_jump_backward | B_jump2 | B_jump2_on_true_top_nil
| B_jump2_on_false_top_nil | B_jump2_on_true_pop | B_jump2_on_false_pop |
B_jump2_on_not_nil_top_top | B_jump2_on_nil_top_top | B_jump2_on_not_nil_pop |
B_jump2_on_nil_pop | B_jump2_backward | B_q_super_send_1 | B_q_super_send_2 | B_q_super_send_3 |
B_q_super_send_n | B_push_local | B_push_argument | B_pop_local | B_pop_argument | B_invalid.
Definition all_bc : list bc :=
  [B_halt; B_dup; B_push_frame; B_push_frame_0; B_push_frame_1; B_push_frame_2; B_push_inner;
B_push_inner_0; B_push_inner_1; B_push_inner_2; B_push_field; B_push_field_0; B_push_field_1;
B_push_block; B_push_block_no_ctx; B_push_constant; B_push_constant_0; B_push_constant_1;
B_push_constant_2; B_push_0; B_push_1; B_push_nil; B_push_global; B_pop; B_pop_frame;
B_pop_frame_0; B_pop_frame_1; B_pop_frame_2; B_pop_inner; B_pop_inner_0; B_pop_inner_1;
B_pop_inner_2; B_pop_field; B_pop_field_0; B_pop_field_1; B_send_1; B_send_2; B_send_3;
B_send_n; B_super_send; B_return_local; B_return_non_local; B_return_self; B_return_field_0;
B_return_field_1; B_return_field_2; B_inc; B_dec; B_inc_field; B_inc_field_push; B_jump;
B_jump_on_true_top_nil; B_jump_on_false_top_nil; B_jump_on_true_pop; B_jump_on_false_pop;
B_jump_on_not_nil_top_top; B_jump_on_nil_top_top; B_jump_on_not_nil_pop; B_jump_on_nil_pop;
B_jump_backward; B_jump2; B_jump2_on_true_top_nil; B_jump2_on_false_top_nil;
B_jump2_on_true_pop; B_jump2_on_false_pop; B_jump2_on_not_nil_top_top; B_jump2_on_nil_top_top;
B_jump2_on_not_nil_pop; B_jump2_on_nil_pop; B_jump2_backward; B_q_super_send_1;
B_q_super_send_2; B_q_super_send_3; B_q_super_send_n; B_push_local; B_push_argument;
B_pop_local; B_pop_argument; B_invalid].
Definition num (b : bc) : nat :=
  match b with
| B_halt => 0 | B_dup => 1 | B_push_frame => 2 | B_push_frame_0 => 3 | B_push_frame_1 => 4 |
B_push_frame_2 => 5 | B_push_inner => 6 | B_push_inner_0 => 7 | B_push_inner_1 => 8 |
B_push_inner_2 => 9 | B_push_field => 10 | B_push_field_0 => 11 | B_push_field_1 => 12 |
B_push_block => 13 | B_push_block_no_ctx => 14 | B_push_constant => 15 | B_push_constant_0 => 16
| B_push_constant_1 => 17 | B_push_constant_2 => 18 | B_push_0 => 19 | B_push_1 => 20 |
B_push_nil => 21 | B_push_global => 22 | B_pop => 23 | B_pop_frame => 24 | B_pop_frame_0 => 25 |
B_pop_frame_1 => 26 | B_pop_frame_2 => 27 | B_pop_inner => 28 | B_pop_inner_0 => 29 |
B_pop_inner_1 => 30 | B_pop_inner_2 => 31 | B_pop_field => 32 | B_pop_field_0 => 33 |
B_pop_field_1 => 34 | B_send_1 => 35 | B_send_2 => 36 | B_send_3 => 37 | B_send_n => 38 |
B_super_send => 39 | B_return_local => 40 | B_return_non_local => 41 | B_return_self => 42 |
B_return_field_0 => 43 | B_return_field_1 => 44 | B_return_field_2 => 45 | B_inc => 46 | B_dec
=> 47 | B_inc_field => 48 | B_inc_field_push => 49 | B_jump => 50 | B_jump_on_true_top_nil => 51
| B_jump_on_false_top_nil => 52 | B_jump_on_true_pop => 53 | B_jump_on_false_pop => 54 |
B_jump_on_not_nil_top_top => 55 | B_jump_on_nil_top_top => 56 | B_jump_on_not_nil_pop => 57 |
B_jump_on_nil_pop => 58 | B_jump_backward => 59 | B_jump2 => 60 | B_jump2_on_true_top_nil => 61
| B_jump2_on_false_top_nil => 62 | B_jump2_on_true_pop => 63 | B_jump2_on_false_pop => 64 |
B_jump2_on_not_nil_top_top => 65 | B_jump2_on_nil_top_top => 66 | B_jump2_on_not_nil_pop => 67 |
B_jump2_on_nil_pop => 68 | B_jump2_backward => 69 | B_q_super_send_1 => 70 | B_q_super_send_2 =>
71 | B_q_super_send_3 => 72 | B_q_super_send_n => 73 | B_push_local => 74 | B_push_argument =>
75 | B_pop_local => 76 | B_pop_argument => 77 | B_invalid => 78
  end.
Definition of_num (n : nat) : option bc := nth_error all_bc n.
Definition is (a b : bc) : bool := num a =? num b.
(** is_one_of (bytecodes.py 112-116) *)
Definition is_one_of (b : bc) (l : list bc) : bool := existsb (is b) l.
(** bytecodes.py 121-157 *)
Definition POP_X := [B_pop_local; B_pop_argument; B_pop_field; B_pop_field_0; B_pop_field_1].
Definition PUSH_BLOCK := [B_push_block; B_push_block_no_ctx].
Definition PUSH_CONST := [B_push_constant; B_push_constant_0; B_push_constant_1;
                          B_push_constant_2; B_push_0; B_push_1; B_push_nil].
Definition PUSH_FIELD := [B_push_field; B_push_field_0; B_push_field_1].
Definition POP_FIELD := [B_pop_field; B_pop_field_0; B_pop_field_1].
(** JUMP_BYTECODES (159-180) are the twenty bytecodes from jump to jump2_backward;
    FIRST_DOUBLE_BYTE_JUMP_BYTECODE (182) is jump2, NUM_SINGLE_BYTE_JUMP_BYTECODES (183)
    is 10. *)
Definition is_jump (n : nat) : bool := (num B_jump <=? n) && (n <=? num B_jump2_backward).
Definition NUM_SINGLE : nat := 10.
(** _BYTECODE_LENGTH, bytecode_length (221-301, 304-307); invalid has none. *)
Definition blen (b : bc) : nat :=
  match b with
  | B_push_frame | B_push_frame_0 | B_push_frame_1 | B_push_frame_2
  | B_push_inner | B_push_inner_0 | B_push_inner_1 | B_push_inner_2
  | B_pop_frame | B_pop_frame_0 | B_pop_frame_1 | B_pop_frame_2
  | B_pop_inner | B_pop_inner_0 | B_pop_inner_1 | B_pop_inner_2
  | B_push_field | B_pop_field | B_inc_field | B_inc_field_push
  | B_push_local | B_push_argument | B_pop_local | B_pop_argument
  | B_jump | B_jump_on_true_top_nil | B_jump_on_false_top_nil | B_jump_on_true_pop
  | B_jump_on_false_pop | B_jump_on_not_nil_top_top | B_jump_on_nil_top_top
  | B_jump_on_not_nil_pop | B_jump_on_nil_pop | B_jump_backward
  | B_jump2 | B_jump2_on_true_top_nil | B_jump2_on_false_top_nil | B_jump2_on_true_pop
  | B_jump2_on_false_pop | B_jump2_on_not_nil_top_top | B_jump2_on_nil_top_top
  | B_jump2_on_not_nil_pop | B_jump2_on_nil_pop | B_jump2_backward => 3
  | B_push_block | B_push_block_no_ctx | B_push_constant | B_push_global
  | B_send_1 | B_send_2 | B_send_3 | B_send_n | B_super_send | B_return_non_local
  | B_q_super_send_1 | B_q_super_send_2 | B_q_super_send_3 | B_q_super_send_n => 2
  | B_invalid => 0
  | _ => 1
  end.

(** * Variables, scopes, literals, methods *)
(** The key of a local in [_locals]: its name, or the qualified name under which an inlined
    local is stored (compiler/ast/variable.py 110-117). *)
Inductive lname := Plain (n : text) | Qual (n : text) (source : nat).
Definition local := (lname * nat)%type.
(** A variable of a scope: a local (by declaration) or the i-th argument. *)
Inductive vref := VLoc (source : nat) | VArg (idx : nat).

(** compiler/method_generation_context.py 13-30: the part of a generation context that is
    about names.  [sc_out] lists the variables marked as accessed out of context
    (variable.py 37-40). *)
Record scope := Scope {
  sc_args : list text;
  sc_locals : list local;
  sc_acc : bool;        (* _accesses_variables_of_outer_context *)
  sc_thr : bool;        (* throws_non_local_return *)
  sc_catch : bool;      (* needs_to_catch_non_local_returns *)
  sc_out : list vref }.
Definition set_acc (s : scope) : scope :=
  {| sc_args := sc_args s; sc_locals := sc_locals s; sc_acc := true; sc_thr := sc_thr s;
     sc_catch := sc_catch s; sc_out := sc_out s |}.
Definition set_thr (s : scope) : scope :=
  {| sc_args := sc_args s; sc_locals := sc_locals s; sc_acc := sc_acc s; sc_thr := true;
     sc_catch := sc_catch s; sc_out := sc_out s |}.
Definition set_catch (s : scope) : scope :=
  {| sc_args := sc_args s; sc_locals := sc_locals s; sc_acc := sc_acc s; sc_thr := sc_thr s;
     sc_catch := true; sc_out := sc_out s |}.
Definition add_out (v : vref) (s : scope) : scope :=
  {| sc_args := sc_args s; sc_locals := sc_locals s; sc_acc := sc_acc s; sc_thr := sc_thr s;
     sc_catch := sc_catch s; sc_out := v :: sc_out s |}.
Definition set_locals (l : list local) (s : scope) : scope :=
  {| sc_args := sc_args s; sc_locals := l; sc_acc := sc_acc s; sc_thr := sc_thr s;
     sc_catch := sc_catch s; sc_out := sc_out s |}.

(** Literals: values, symbols, block methods.  A method is what [assemble] answers
    (method_bc.py 61-92): the label of the block literal (0 for a method), bytecodes,
    literals, the locals of its lexical scope, the number of arguments of its scope, its
    loops (address, backward_jump_idx), its stack size and, if it is a trivial method
    (method_trivial.py), which one.  Simplification: the model keeps the bytecodes of
    trivial methods too. *)
Inductive literal :=
| LV (v : value)
| LS (t : text)
| LM (m : meth)
with meth :=
| Meth (label : nat) (bytes : list nat) (lits : list literal) (locals : list local)
       (nargs : nat) (loops : list (nat * nat)) (max_stack : Z) (tr : option triv)
with triv :=
| TLit (l : literal)                    (* LiteralReturn *)
| TGlob (n : text) (ctx : nat)          (* GlobalRead *)
| TFld (idx ctx : nat)                  (* FieldRead *)
| TFldW (idx arg : nat).                (* FieldWrite *)
Definition me_label (m : meth) := let (l, _, _, _, _, _, _, _) := m in l.
Definition me_bytes (m : meth) := let (_, b, _, _, _, _, _, _) := m in b.
Definition me_lits (m : meth) := let (_, _, l, _, _, _, _, _) := m in l.
Definition me_locals (m : meth) := let (_, _, _, l, _, _, _, _) := m in l.
Definition me_nargs (m : meth) := let (_, _, _, _, n, _, _, _) := m in n.
Definition me_loops (m : meth) := let (_, _, _, _, _, l, _, _) := m in l.
Definition me_max (m : meth) := let (_, _, _, _, _, _, x, _) := m in x.
Definition me_triv (m : meth) := let (_, _, _, _, _, _, _, t) := m in t.

(** The value a literal is at run time; symbols are interned strings. *)
Definition sym_value (t : text) : value := VSym (string_of_list_ascii t).
Definition lit_value (l : literal) : option value :=
  match l with LV v => Some v | LS t => Some (sym_value t) | LM _ => None end.
(** [lit in self._literals] compares identities: symbols and the two booleans are unique
    objects, every other literal of the source is an object of its own. *)
Definition same_lit (a b : literal) : bool :=
  match a, b with
  | LS s, LS t => text_eqb s t
  | LV VTrue, LV VTrue => true
  | LV VFalse, LV VFalse => true
  | _, _ => false
  end.

(** Symbol._determine_number_of_signature_arguments (vmobjects/symbol.py 13-51); the
    receiver counts. *)
Definition is_op_char (c : ascii) : bool :=
  existsb (Ascii.eqb c) (list_ascii_of_string "~&|*/@+-=><,%\").
Definition nargs (sel : text) : nat :=
  if forallb is_op_char sel then 2
  else S (length (filter (fun c => Ascii.eqb c ":") sel)).

(** * The code part of a generation context
    (bc/method_generation_context.py 50-67). [g_last] is _last_4_bytecodes, newest first. *)
Record mg := Mg {
  g_bytes : list nat;
  g_lits : list literal;
  g_last : list bc;
  g_inl : bool;                   (* _is_currently_inlining_a_block *)
  g_peep : bool;                  (* are sequences rewritten while they are emitted?  true in the
                                     compiler; false is the compiler without its peephole rules *)
  g_loops : list (nat * nat);     (* inlined_loops *)
  g_cur : Z;                      (* _current_stack_depth *)
  g_max : Z }.                    (* max_stack_depth *)
Definition no_last : list bc := [B_invalid; B_invalid; B_invalid; B_invalid].
Definition mg_new (p : bool) : mg := {| g_bytes := []; g_lits := []; g_last := no_last; g_inl := false;
                          g_peep := p; g_loops := []; g_cur := 0; g_max := 0 |}.
Definition mg0 : mg := mg_new true.
(** No rewriting: while a block is inlined. *)
Definition peep_off (g : mg) : bool := g_inl g || negb (g_peep g).
Definition with_bytes (b : list nat) (g : mg) : mg :=
  {| g_bytes := b; g_lits := g_lits g; g_last := g_last g; g_inl := g_inl g; g_peep := g_peep g;
     g_loops := g_loops g; g_cur := g_cur g; g_max := g_max g |}.
Definition with_lits (l : list literal) (g : mg) : mg :=
  {| g_bytes := g_bytes g; g_lits := l; g_last := g_last g; g_inl := g_inl g; g_peep := g_peep g;
     g_loops := g_loops g; g_cur := g_cur g; g_max := g_max g |}.
Definition with_last (l : list bc) (g : mg) : mg :=
  {| g_bytes := g_bytes g; g_lits := g_lits g; g_last := l; g_inl := g_inl g; g_peep := g_peep g;
     g_loops := g_loops g; g_cur := g_cur g; g_max := g_max g |}.
Definition with_inl (b : bool) (g : mg) : mg :=
  {| g_bytes := g_bytes g; g_lits := g_lits g; g_last := g_last g; g_inl := b; g_peep := g_peep g;
     g_loops := g_loops g; g_cur := g_cur g; g_max := g_max g |}.
Definition with_loops (l : list (nat * nat)) (g : mg) : mg :=
  {| g_bytes := g_bytes g; g_lits := g_lits g; g_last := g_last g; g_inl := g_inl g; g_peep := g_peep g;
     g_loops := l; g_cur := g_cur g; g_max := g_max g |}.

(** The byte at an index (a negative Python index is an error here). *)
Definition byte_at (bs : list nat) (i : nat) : res nat :=
  match nth_error bs i with Some n => Ok n | None => Err IndexError end.
(** [bs[i] = n] *)
Fixpoint set_byte (bs : list nat) (i n : nat) : list nat :=
  match bs, i with
  | _ :: r, O => n :: r
  | b :: r, S i => b :: set_byte r i n
  | [], _ => []
  end.

(** add_bytecode (278-286) *)
Definition add_bytecode (b : bc) (effect : Z) (g : mg) : mg :=
  {| g_bytes := g_bytes g ++ [num b]; g_lits := g_lits g;
     g_last := b :: firstn 3 (g_last g); g_inl := g_inl g; g_peep := g_peep g; g_loops := g_loops g;
     g_cur := g_cur g + effect; g_max := Z.max (g_max g) (g_cur g + effect) |}.
(** add_bytecode_argument (288-289); add_bytecode_argument_and_get_index (291-294) also
    answers the length before. *)
Definition add_argument (n : nat) (g : mg) : mg := with_bytes (g_bytes g ++ [n]) g.
(** emit1, emit2, emit3 (bytecode_generator.py 240-257) *)
Definition emit1 (b : bc) (effect : Z) (g : mg) : mg := add_bytecode b effect g.
Definition emit2 (b : bc) (i : nat) (effect : Z) (g : mg) : mg :=
  add_argument i (add_bytecode b effect g).
Definition emit3 (b : bc) (i c : nat) (effect : Z) (g : mg) : mg :=
  add_argument c (add_argument i (add_bytecode b effect g)).
(** emit3_with_dummy, emit_jump_with_dummy_offset (223-227, 260-264): the index of the
    offset and the new state *)
Definition emit_dummy (b : bc) (effect : Z) (g : mg) : nat * mg :=
  (S (length (g_bytes g)), emit3 b 0 0 effect g).

(** add_literal_if_absent, add_literal, update_literal (240-257) *)
Fixpoint find_lit (l : literal) (ls : list literal) : option nat :=
  match ls with
  | [] => None
  | x :: r => if same_lit l x then Some 0 else option_map S (find_lit l r)
  end.
Definition add_literal_if_absent (l : literal) (g : mg) : nat * mg :=
  match find_lit l (g_lits g) with
  | Some i => (i, g)
  | None => (length (g_lits g), with_lits (g_lits g ++ [l]) g)
  end.
Definition add_literal (l : literal) (g : mg) : res (nat * mg) :=
  if length (g_lits g) <? 128
  then Ok (length (g_lits g), with_lits (g_lits g ++ [l]) g)
  else Err AssertionError.
Fixpoint set_lit (ls : list literal) (i : nat) (l : literal) : list literal :=
  match ls, i with
  | _ :: r, O => l :: r
  | x :: r, S i => x :: set_lit r i l
  | [], _ => []
  end.
Definition update_literal (old : literal) (i : nat) (new : literal) (g : mg) : res mg :=
  match nth_error (g_lits g) i with
  | Some x => if same_lit x old then Ok (with_lits (set_lit (g_lits g) i new) g)
              else Err AssertionError
  | None => Err IndexError
  end.

(** _last_bytecode_is, _last_bytecode_is_one_of (bc/method_generation_context.py 305-320): [lastb k] is the k-th newest. *)
Definition lastb (k : nat) (g : mg) : bc := nth k (g_last g) B_invalid.
Definition last_is (k : nat) (b : bc) (g : mg) : bool := is (lastb k g) b.
Definition last_one_of (k : nat) (l : list bc) (g : mg) : bool := is_one_of (lastb k g) l.
(** _remove_last_bytecodes (343-353) *)
Definition last_len (n : nat) (g : mg) : nat :=
  list_sum (map blen (firstn n (g_last g))).
Definition remove_last (n : nat) (g : mg) : res mg :=
  if last_len n g <=? length (g_bytes g)
  then Ok (with_bytes (firstn (length (g_bytes g) - last_len n g) (g_bytes g)) g)
  else Err AssertionError.
(** _remove_last_bytecode_at(1) (322-341) *)
Definition remove_second_last (g : mg) : res mg :=
  if is (lastb 0 g) B_invalid || is (lastb 1 g) B_invalid then Err PyException
  else
    let off := length (g_bytes g) - last_len 2 g in
    if last_len 2 g <=? length (g_bytes g)
    then Ok (with_bytes (firstn off (g_bytes g) ++ skipn (off + blen (lastb 1 g)) (g_bytes g)) g)
    else Err AssertionError.
(** _reset_last_bytecode_buffer (355-359) *)
Definition reset_last (g : mg) : mg := with_last no_last g.

(** optimize_inc_field_push (389-398) *)
Definition optimize_inc_field_push (g : mg) : res (bool * mg) :=
  let i := length (g_bytes g) - 3 in
  b <- byte_at (g_bytes g) i ;;
  if b =? num B_inc_field_push
  then Ok (true, with_last (B_inc_field :: tl (g_last g))
                   (with_bytes (set_byte (g_bytes g) i (num B_inc_field)) g))
  else Err AssertionError.
(** optimize_dup_pop_pop_sequence (361-387) *)
Definition optimize_dup_pop_pop (g : mg) : res (bool * mg) :=
  if peep_off g then Ok (false, g)
  else if last_is 0 B_inc_field_push g then optimize_inc_field_push g
  else if negb (last_one_of 0 POP_X g) then Ok (false, g)
  else if negb (last_is 1 B_dup g) then Ok (false, g)
  else g' <- remove_second_last g ;;
       Ok (true, with_last [lastb 0 g; lastb 2 g; lastb 3 g; B_invalid] g').
(** _get_index_and_ctx_of_last (463-471) *)
Definition index_and_ctx_of_last (b : bc) (off : nat) (g : mg) : res (nat * nat) :=
  match b with
  | B_push_field_0 => Ok (0, 0)
  | B_push_field_1 => Ok (1, 0)
  | _ =>
      let o := length (g_bytes g) - off in
      x <- byte_at (g_bytes g) o ;;
      if negb (x =? num b) then Err AssertionError
      else i <- byte_at (g_bytes g) (o + 1) ;; c <- byte_at (g_bytes g) (o + 2) ;; Ok (i, c)
  end.
(** optimize_inc_field (400-436) with emit_inc_field_push (bytecode_generator.py 21-22) *)
Definition optimize_inc_field (f ctx : nat) (g : mg) : res (bool * mg) :=
  if peep_off g then Ok (false, g)
  else if negb (last_is 0 B_dup g) then Ok (false, g)
  else if negb (last_is 1 B_inc g) then Ok (false, g)
  else if negb (last_one_of 2 PUSH_FIELD g) then Ok (false, g)
  else
    p <- index_and_ctx_of_last (lastb 2 g) (1 + 1 + blen (lastb 2 g)) g ;;
    if (fst p =? f) && (snd p =? ctx)
    then g' <- remove_last 3 g ;; Ok (true, emit3 B_inc_field_push f ctx 1 (reset_last g'))
    else Ok (false, g).
(** emit_return_field (bytecode_generator.py 48-60) *)
Definition emit_return_field (f : nat) (g : mg) : res mg :=
  match f with
  | 0 => Ok (emit1 B_return_field_0 0 g)
  | 1 => Ok (emit1 B_return_field_1 0 g)
  | 2 => Ok (emit1 B_return_field_2 0 g)
  | _ => Err NotImplementedErr
  end.
(** optimize_return_field (438-461) *)
Definition optimize_return_field (g : mg) : res (bool * mg) :=
  let finish i := (g' <- remove_last 1 g ;; g'' <- emit_return_field i (reset_last g') ;;
                   Ok (true, g'')) in
  if peep_off g then Ok (false, g)
  else
    match lastb 0 g with
    | B_push_field_0 => finish 0
    | B_push_field_1 => finish 1
    | B_push_field =>
        let n := length (g_bytes g) in
        c <- byte_at (g_bytes g) (n - 1) ;;
        if 0 <? c then Ok (false, g)
        else i <- byte_at (g_bytes g) (n - 2) ;;
             if 2 <? i then Ok (false, g) else finish i
    | _ => Ok (false, g)
    end.
(** remove_last_pop_for_block_local_return (209-238) *)
Definition remove_last_pop (g : mg) : res mg :=
  let n := length (g_bytes g) in
  if last_is 0 B_pop g then
    if n =? 0 then Err IndexError else Ok (with_bytes (firstn (n - 1) (g_bytes g)) g)
  else
    g <- (if last_one_of 0 POP_X g && negb (last_is 1 B_dup g) then
            let i := n - blen (lastb 0 g) in
            if blen (lastb 0 g) <=? n then
              b <- byte_at (g_bytes g) i ;;
              if existsb (fun x => b =? num x) POP_X
              then Ok (with_last [lastb 0 g; B_dup; lastb 1 g; lastb 2 g]
                         (with_bytes (firstn i (g_bytes g) ++ num B_dup :: skipn i (g_bytes g)) g))
              else Err AssertionError
            else Err AssertionError
          else Ok g) ;;
    if last_is 0 B_inc_field g then
      let i := length (g_bytes g) - 3 in
      b <- byte_at (g_bytes g) i ;;
      if b =? num B_inc_field
      then Ok (with_last (B_inc_field_push :: tl (g_last g))
                 (with_bytes (set_byte (g_bytes g) i (num B_inc_field_push)) g))
      else Err AssertionError
    else Ok g.

(** * Generation contexts *)
(** A context and the scopes of the contexts around it, its own scope first. *)
Definition ctx := (mg * list scope)%type.
(** What the compiler asks of the class being compiled and of the universe: the fields
    (class_generation_context.py 74-82) and universe.has_global. *)
Record cenv := Cenv { ce_fields : list text; ce_known : text -> bool }.

Fixpoint find_text (n : text) (l : list text) : option nat :=
  match l with
  | [] => None
  | x :: r => if text_eqb n x then Some 0 else option_map S (find_text n r)
  end.
Definition plain_is (n : text) (l : local) : bool :=
  match fst l with Plain m => text_eqb n m | Qual _ _ => false end.
Fixpoint find_local (n : text) (l : list local) : option (nat * nat) :=
  match l with
  | [] => None
  | x :: r => if plain_is n x then Some (0, snd x)
              else option_map (fun p => (S (fst p), snd p)) (find_local n r)
  end.
(** What find_var finds: a local (its index and declaration) or an argument. *)
Inductive found := FLoc (idx source : nat) | FArg (idx : nat).
(** find_var (259-271): the variable, its context level and the contexts on the way, now
    marked. *)
Fixpoint find_var (n : text) (scs : list scope) : option (nat * found) * list scope :=
  match scs with
  | [] => (None, [])
  | sc :: outer =>
      match find_local n (sc_locals sc) with
      | Some (i, s) => (Some (0, FLoc i s), scs)
      | None =>
          match find_text n (sc_args sc) with
          | Some i => (Some (0, FArg i), scs)
          | None =>
              let '(r, outer') := find_var n outer in
              match r with
              | Some (c, f) => (Some (S c, f), set_acc sc :: outer')
              | None => (None, sc :: outer')
              end
          end
      end
  end.
(** FindVarResult.mark_accessed (831-832) with _Variable.mark_accessed (variable.py 37-40) *)
Definition ref_of (f : found) : vref :=
  match f with FLoc _ s => VLoc s | FArg i => VArg i end.
Fixpoint update_nth {A} (n : nat) (f : A -> A) (l : list A) : list A :=
  match l, n with
  | x :: r, O => f x :: r
  | x :: r, S n => x :: update_nth n f r
  | [], _ => []
  end.
Definition mark_accessed (c : nat) (v : vref) (scs : list scope) : list scope :=
  match c with O => scs | S _ => update_nth c (add_out v) scs end.
(** mark_self_as_accessed_from_outer_context (126-129) *)
Definition mark_self (scs : list scope) : list scope := map set_acc scs.
(** make_catch_non_local_return (131-136, 141-146): this context and those around it throw, the
    outermost one catches. *)
Fixpoint mark_nlr_outer (scs : list scope) : list scope :=
  match scs with
  | [] => []
  | [root] => [set_catch root]
  | s :: r => set_thr s :: mark_nlr_outer r
  end.
Definition make_catch (scs : list scope) : res (list scope) :=
  match scs with
  | s :: (_ :: _) as r => Ok (set_thr s :: mark_nlr_outer (tl scs))
  | _ => Err AttributeError
  end.
(** requires_context (138-139) *)
Definition requires_context (s : scope) : bool := sc_thr s || sc_acc s.
(** get_max_context_level (273-276) *)
Definition max_ctx (scs : list scope) : nat := length scs - 1.
(** get_inlined_local_idx (192-201): the last local with that declaration *)
Fixpoint last_index (s : nat) (l : list local) : option nat :=
  match l with
  | [] => None
  | x :: r => match last_index s r with
              | Some i => Some (S i)
              | None => if snd x =? s then Some 0 else None
              end
  end.
Definition inlined_local_idx (s : nat) (ls : list local) : res nat :=
  match last_index s ls with Some i => Ok i | None => Err PyException end.

(** * Emission (bytecode_generator.py) *)
(** emit_pop (25-27) *)
Definition emit_pop (g : mg) : res mg :=
  r <- optimize_dup_pop_pop g ;; Ok (if fst r then snd r else emit1 B_pop (-1) (snd r)).
(** emit_return_self (34-36) *)
Definition emit_return_self (g : mg) : res mg :=
  r <- optimize_dup_pop_pop g ;; Ok (emit1 B_return_self 0 (snd r)).
(** emit_return_local (39-41) *)
Definition emit_return_local (g : mg) : res mg :=
  r <- optimize_return_field g ;; Ok (if fst r then snd r else emit1 B_return_local 0 (snd r)).
(** emit_push_block (67-69) *)
Definition emit_push_block (m : meth) (with_ctx : bool) (g : mg) : mg :=
  let '(i, g) := add_literal_if_absent (LM m) g in
  emit2 (if with_ctx then B_push_block else B_push_block_no_ctx) i 1 g.
(** emit_push_field_with_index (83-92): the context level written is the one of the
    context. *)
Definition emit_push_field_with_index (f c mx : nat) (g : mg) : mg :=
  match c, f with
  | 0, 0 => emit1 B_push_field_0 1 g
  | 0, 1 => emit1 B_push_field_1 1 g
  | _, _ => emit3 B_push_field f mx 1 g
  end.
(** emit_pop_field_with_index (131-139) *)
Definition emit_pop_field_with_index (f c : nat) (g : mg) : mg :=
  match c, f with
  | 0, 0 => emit1 B_pop_field_0 (-1) g
  | 0, 1 => emit1 B_pop_field_1 (-1) g
  | _, _ => emit3 B_pop_field f c (-1) g
  end.
(** emit_push_constant (163-189) *)
Definition emit_push_constant (l : literal) (g : mg) : mg :=
  match l with
  | LV (VInt 0) => emit1 B_push_0 1 g
  | LV (VInt 1) => emit1 B_push_1 1 g
  | LV VNil => emit1 B_push_nil 1 g
  | _ =>
      let '(i, g) := add_literal_if_absent l g in
      match i with
      | 0 => emit1 B_push_constant_0 1 g
      | 1 => emit1 B_push_constant_1 1 g
      | 2 => emit1 B_push_constant_2 1 g
      | _ => emit2 B_push_constant i 1 g
      end
  end.
Definition t_nil : text := str "nil".
Definition t_true : text := str "true".
Definition t_false : text := str "false".
(** emit_push_global (95-110) *)
Definition emit_push_global (ce : cenv) (n : text) (c : ctx) : ctx :=
  let '(g, scs) := c in
  if text_eqb n t_nil then (emit_push_constant (LV VNil) g, scs)
  else if text_eqb n t_true then (emit_push_constant (LV VTrue) g, scs)
  else if text_eqb n t_false then (emit_push_constant (LV VFalse) g, scs)
  else
    let '(i, g) := add_literal_if_absent (LS n) g in
    (emit2 B_push_global i 1 g, if ce_known ce n then scs else mark_self scs).
(** emit_super_send, emit_send (142-160) *)
Definition send_effect (sel : text) : Z := (1 - Z.of_nat (nargs sel))%Z.
Definition emit_super_send (sel : text) (g : mg) : mg :=
  let '(i, g) := add_literal_if_absent (LS sel) g in
  emit2 B_super_send i (send_effect sel) g.
Definition send_bc (n : nat) : bc :=
  match n with 1 => B_send_1 | 2 => B_send_2 | 3 => B_send_3 | _ => B_send_n end.
Definition emit_send (sel : text) (g : mg) : mg :=
  let '(i, g) := add_literal_if_absent (LS sel) g in
  emit2 (send_bc (nargs sel)) i (send_effect sel) g.
(** JumpCondition (6-10) and emit_jump_on_with_dummy_offset (196-220) *)
Inductive cond := OnNil | OnNotNil | OnTrue | OnFalse.
Definition jump_bc (c : cond) (needs_pop : bool) : bc :=
  match c, needs_pop with
  | OnTrue, true => B_jump_on_true_pop
  | OnTrue, false => B_jump_on_true_top_nil
  | OnFalse, true => B_jump_on_false_pop
  | OnFalse, false => B_jump_on_false_top_nil
  | OnNotNil, true => B_jump_on_not_nil_pop
  | OnNotNil, false => B_jump_on_not_nil_top_top
  | OnNil, true => B_jump_on_nil_pop
  | OnNil, false => B_jump_on_nil_top_top
  end.
Definition emit_jump_on (c : cond) (needs_pop : bool) (g : mg) : nat * mg :=
  emit_dummy (jump_bc c needs_pop) (if needs_pop then -1 else 0)%Z g.
(** _check_jump_offset (bc/method_generation_context.py 810-822): ParseError *)
Definition check_jump_offset (off : nat) : res unit :=
  if off <=? 65535 then Ok tt else Err PyException.
(** patch_jump_offset_to_point_to_next_instruction (786-805) *)
Definition patch_jump (idx : nat) (g : mg) : res mg :=
  let start := idx - 1 in
  b <- byte_at (g_bytes g) start ;;
  if negb (is_jump b) then Err AssertionError
  else
    let off := length (g_bytes g) - start in
    _ <- check_jump_offset off ;;
    if off <=? 255
    then Ok (with_bytes (set_byte (set_byte (g_bytes g) idx off) (idx + 1) 0) g)
    else
      let b' := if b <? num B_jump2 then b + NUM_SINGLE else b in
      if negb (is_jump b') then Err AssertionError
      else Ok (with_bytes (set_byte (set_byte (set_byte (g_bytes g) start b')
                                              idx (off mod 256)) (idx + 1) (off / 256)) g).
(** emit_backwards_jump_offset_to_target (774-784), emit_jump_backward_with_offset
    (bytecode_generator.py 230-237) *)
Definition emit_backwards_jump (loop_begin : nat) (g : mg) : res mg :=
  let here := length (g_bytes g) in
  let off := here - loop_begin in
  _ <- check_jump_offset off ;;
  let g := emit3 (if off <=? 255 then B_jump_backward else B_jump2_backward)
                 (off mod 256) (off / 256) 0 g in
  Ok (with_loops (g_loops g ++ [(loop_begin, here)]) g).

(** * Inlining of a block method (method_bc.py 255-503) *)
(** The two heaps hold entries with an address; heappop takes one with the smallest
    (C32).  The model keeps them as lists ordered by address. *)
Fixpoint queue_push {A} (a : nat) (x : A) (q : list (nat * A)) : list (nat * A) :=
  match q with
  | [] => [(a, x)]
  | (b, y) :: r => if a <=? b then (a, x) :: q else (b, y) :: queue_push a x r
  end.
(** _create_back_jump_heap (259-264) *)
Definition back_jump_queue (loops : list (nat * nat)) : list (nat * nat) :=
  fold_left (fun q l => queue_push (fst l) (snd l) q) loops [].
(** _prepare_back_jump_to_current_address (267-280) *)
Fixpoint prepare_back_jumps (back todo : list (nat * nat)) (i here : nat)
  : res (list (nat * nat) * list (nat * nat)) :=
  match back with
  | (a, b) :: r => if a <=? i then
                     if a =? i then prepare_back_jumps r (queue_push b here todo) i here
                     else Err AssertionError
                   else Ok (back, todo)
  | [] => Ok ([], todo)
  end.
(** _patch_jump_to_current_address (283-289) *)
Fixpoint patch_jumps (i : nat) (jumps : list (nat * nat)) (g : mg) : res (list (nat * nat) * mg) :=
  match jumps with
  | (a, idx) :: r => if a <=? i then
                       if a =? i then g <- patch_jump idx g ;; patch_jumps i r g
                       else Err AssertionError
                     else Ok (jumps, g)
  | [] => Ok ([], g)
  end.
(** compute_offset (bytecode_generator.py 267-268) *)
Definition compute_offset (a b : nat) : nat := a + b * 256.
Definition get_lit (ls : list literal) (i : nat) : res literal :=
  match nth_error ls i with Some l => Ok l | None => Err IndexError end.
Definition get_sym (ls : list literal) (i : nat) : res text :=
  l <- get_lit ls i ;; match l with LS t => Ok t | _ => Err AttributeError end.
Definition get_meth (ls : list literal) (i : nat) : res meth :=
  l <- get_lit ls i ;; match l with LM m => Ok m | _ => Err AttributeError end.
Definition get_source (ls : list local) (i : nat) : res nat :=
  match nth_error ls i with Some l => Ok (snd l) | None => Err IndexError end.
Definition pred_ctx (c : nat) : res nat :=
  match c with O => Err AssertionError | S c => Ok c end.

(** adapt_after_outer_inlined (method_bc.py 505-622): [r] is removed_ctx_level, [old] the
    locals of the scope that was inlined ([_lexical_scope.get_local(idx, ctx_level)] with
    [ctx_level = r] is a local of that scope), [new] the locals of the context into which
    it was inlined; answers the adapted method and the locals marked as accessed out of
    context.  Trivial methods have no such method.  Simplification: the change of the
    chain of lexical scopes (drop_inlined_scope) is left to the reader of the result. *)
Definition is_patchable (b : bc) : bool :=
  is_one_of b [B_push_field; B_pop_field; B_push_argument; B_pop_argument;
               B_inc_field_push; B_inc_field].
Definition no_context (b : bc) : bool :=
  is_one_of b [B_halt; B_dup; B_push_block_no_ctx; B_push_constant; B_push_constant_0;
    B_push_constant_1; B_push_constant_2; B_push_0; B_push_1; B_push_nil; B_push_global;
    B_pop; B_send_1; B_send_2; B_send_3; B_send_n; B_super_send; B_return_local;
    B_return_field_0; B_return_field_1; B_return_field_2; B_inc; B_dec;
    B_jump; B_jump_on_true_top_nil; B_jump_on_true_pop; B_jump_on_false_top_nil;
    B_jump_on_false_pop; B_jump_on_not_nil_top_top; B_jump_on_nil_top_top;
    B_jump_on_not_nil_pop; B_jump_on_nil_pop; B_jump_backward;
    B_jump2; B_jump2_on_true_top_nil; B_jump2_on_true_pop; B_jump2_on_false_top_nil;
    B_jump2_on_false_pop; B_jump2_on_not_nil_top_top; B_jump2_on_nil_top_top;
    B_jump2_on_not_nil_pop; B_jump2_on_nil_pop; B_jump2_backward].
Definition get_bc (bs : list nat) (i : nat) : res bc :=
  n <- byte_at bs i ;; match of_num n with Some b => Ok b | None => Err PyException end.
(** One bytecode [b] at index [i]; [subs] are the results of adapting the literals one level
    further in.  Simplification: the code adapts nested block methods in place, the model
    puts the adapted method into the literals. *)
Definition adapt_bc (r : nat) (old new : list local) (subs : list (res (literal * list nat)))
  (i : nat) (b : bc) (bs : list nat) (ls : list literal) (marks : list nat)
  : res (list nat * list literal * list nat) :=
  if no_context b then Ok (bs, ls, marks)
  else if is_patchable b then
    c <- byte_at bs (i + 2) ;;
    Ok (if r <? c then set_byte bs (i + 2) (c - 1) else bs, ls, marks)
  else
    match b with
    | B_push_block =>
        k <- byte_at bs (i + 1) ;;
        x <- (match nth_error subs k with Some x => x | None => Err IndexError end) ;;
        Ok (bs, set_lit ls k (fst x), snd x ++ marks)
    | B_push_local | B_pop_local =>
        c <- byte_at bs (i + 2) ;;
        if c =? r then
          k <- byte_at bs (i + 1) ;;
          s <- get_source old k ;;
          k' <- inlined_local_idx s new ;;
          if k' <=? 255 then Ok (set_byte bs (i + 1) k', ls, s :: marks)
          else Err AssertionError
        else Ok (if r <? c then set_byte bs (i + 2) (c - 1) else bs, ls, marks)
    | B_return_non_local =>
        c <- byte_at bs (i + 1) ;;
        c' <- pred_ctx c ;;
        Ok (set_byte bs (i + 1) c', ls, marks)
    | _ => Err PyException
    end.
(** The loop over the bytecodes from [i]. *)
Fixpoint adapt_loop (fuel r : nat) (old new : list local)
  (subs : list (res (literal * list nat))) (i : nat) (bs : list nat) (ls : list literal)
  (marks : list nat) : res (list nat * list literal * list nat) :=
  match fuel with
  | O => Err OutOfFuel
  | S fuel =>
      if length bs <=? i then Ok (bs, ls, marks)
      else
        b <- get_bc bs i ;;
        p <- adapt_bc r old new subs i b bs ls marks ;;
        let '(bs, ls, marks) := p in
        adapt_loop fuel r old new subs (i + blen b) bs ls marks
  end.
Fixpoint adapt (r : nat) (old new : list local) (m : meth) {struct m} : res (meth * list nat) :=
  match m with
  | Meth label bytes lits locals na loops mx tr =>
      match tr with
      | Some _ => Err AttributeError
      | None =>
          let subs := map (fun l => match l with
                                    | LM m => p <- adapt (S r) old new m ;;
                                              Ok (LM (fst p), snd p)
                                    | _ => Err AttributeError
                                    end) lits in
          p <- adapt_loop (S (length bytes)) r old new subs 0 bytes lits [] ;;
          let '(bytes, lits, marks) := p in
          Ok (Meth label bytes lits locals na loops mx None, marks)
      end
  end.

(** inline_locals, merge_into_scope (compiler/method_generation_context.py 86-98, 214-218) *)
Definition qualified (l : local) : local :=
  match fst l with Plain n => (Qual n (snd l), snd l) | Qual n s => (Qual n s, snd l) end.
Definition has_key (k : lname) (ls : list local) : bool :=
  existsb (fun l => match fst l, k with
                    | Qual n s, Qual m t => text_eqb n m && (s =? t)
                    | Plain n, Plain m => text_eqb n m
                    | _, _ => false
                    end) ls.
Fixpoint inline_locals (new cur : list local) : res (list local) :=
  match new with
  | [] => Ok cur
  | l :: r => if has_key (fst (qualified l)) cur then Err AssertionError
              else inline_locals r (cur ++ [qualified l])
  end.
Definition merge_into_scope (m : meth) (scs : list scope) : res (list scope) :=
  if me_nargs m =? 1 then
    match scs with
    | sc :: outer => ls <- inline_locals (me_locals m) (sc_locals sc) ;;
                     Ok (set_locals ls sc :: outer)
    | [] => Err AttributeError
    end
  else Err AssertionError.
Definition head_locals (scs : list scope) : list local :=
  match scs with sc :: _ => sc_locals sc | [] => [] end.
Definition mark_locals (marks : list nat) (scs : list scope) : list scope :=
  match scs with
  | sc :: r => fold_right (fun s sc => add_out (VLoc s) sc) sc marks :: r
  | [] => []
  end.

(** One bytecode of _inline_into (method_bc.py 303-501), jumps excepted: [b] at index [i] of the block
    method's bytecodes [bs]. *)
Definition inline_bc (ce : cenv) (bs : list nat) (ls : list literal) (locals : list local)
  (i : nat) (b : bc) (c : ctx) : res ctx :=
  let '(g, scs) := c in
  let here e := Ok (e, scs) in
  match b with
  | B_halt => here (emit1 b 0 g)
  | B_dup => here (emit1 b 1 g)
  | B_push_field | B_pop_field | B_push_argument | B_pop_argument =>
      x <- byte_at bs (i + 1) ;;
      k <- byte_at bs (i + 2) ;;
      k <- pred_ctx k ;;
      match b with
      | B_push_field => here (emit_push_field_with_index x k (max_ctx scs) g)
      | B_pop_field => here (emit_pop_field_with_index x k g)
      | _ => here (emit3 b x k 1 g)
      end
  | B_inc_field | B_inc_field_push =>
      x <- byte_at bs (i + 1) ;;
      k <- byte_at bs (i + 2) ;;
      k <- pred_ctx k ;;
      here (emit3 b x k 1 g)
  | B_push_local | B_pop_local =>
      x <- byte_at bs (i + 1) ;;
      k <- byte_at bs (i + 2) ;;
      let effect := match b with B_push_local => 1%Z | _ => (-1)%Z end in
      match k with
      | 0 => s <- get_source locals x ;;
             x <- inlined_local_idx s (head_locals scs) ;;
             here (emit3 b x 0 effect g)
      | S k => here (emit3 b x k effect g)
      end
  | B_push_block =>
      x <- byte_at bs (i + 1) ;;
      m <- get_meth ls x ;;
      p <- adapt 1 locals (head_locals scs) m ;;
      Ok (emit_push_block (fst p) true g, mark_locals (snd p) scs)
  | B_push_block_no_ctx =>
      x <- byte_at bs (i + 1) ;;
      m <- get_meth ls x ;;
      here (emit_push_block m false g)
  | B_push_constant =>
      x <- byte_at bs (i + 1) ;; l <- get_lit ls x ;; here (emit_push_constant l g)
  | B_push_constant_0 => l <- get_lit ls 0 ;; here (emit_push_constant l g)
  | B_push_constant_1 => l <- get_lit ls 1 ;; here (emit_push_constant l g)
  | B_push_constant_2 => l <- get_lit ls 2 ;; here (emit_push_constant l g)
  | B_push_0 | B_push_1 | B_push_nil => here (emit1 b 1 g)
  | B_pop => here (emit1 b (-1) g)
  | B_inc | B_dec => here (emit1 b 0 g)
  | B_push_global =>
      x <- byte_at bs (i + 1) ;; t <- get_sym ls x ;; Ok (emit_push_global ce t c)
  | B_send_1 | B_send_2 | B_send_3 | B_send_n =>
      x <- byte_at bs (i + 1) ;; t <- get_sym ls x ;; here (emit_send t g)
  | B_super_send =>
      x <- byte_at bs (i + 1) ;; t <- get_sym ls x ;; here (emit_super_send t g)
  | B_return_local => here g
  | B_return_non_local =>
      x <- byte_at bs (i + 1) ;;
      match x - 1 with
      | 0 => g <- emit_return_local g ;; here g
      | k => if k =? max_ctx scs then here (emit2 B_return_non_local k 0 g)
             else Err AssertionError
      end
  | B_return_field_0 | B_return_field_1 | B_return_field_2 => here (emit1 b 0 g)
  | _ => Err PyException
  end.
(** The forward jumps (434-473) and their effect on the depth. *)
Definition forward_effect (b : bc) : option Z :=
  match b with
  | B_jump | B_jump_on_true_top_nil | B_jump_on_false_top_nil | B_jump_on_not_nil_top_top
  | B_jump_on_nil_top_top | B_jump2 | B_jump2_on_true_top_nil | B_jump2_on_false_top_nil
  | B_jump2_on_not_nil_top_top | B_jump2_on_nil_top_top => Some 0%Z
  | B_jump_on_true_pop | B_jump_on_false_pop | B_jump_on_not_nil_pop | B_jump_on_nil_pop
  | B_jump2_on_true_pop | B_jump2_on_false_pop | B_jump2_on_not_nil_pop
  | B_jump2_on_nil_pop => Some (-1)%Z
  | _ => None
  end.
(** _inline_into (291-503): [jumps] and [todo] are the two queues of jumps to patch. *)
Fixpoint inline_loop (fuel : nat) (ce : cenv) (bs : list nat) (ls : list literal)
  (locals : list local) (i : nat) (jumps back todo : list (nat * nat)) (c : ctx) : res ctx :=
  match fuel with
  | O => Err OutOfFuel
  | S fuel =>
      if length bs <=? i then
        match jumps with [] => Ok c | _ => Err AssertionError end
      else
        let '(g, scs) := c in
        bt <- prepare_back_jumps back todo i (length (g_bytes g)) ;;
        let '(back, todo) := bt in
        jg <- patch_jumps i jumps g ;;
        let '(jumps, g) := jg in
        b <- get_bc bs i ;;
        match forward_effect b with
        | Some e =>
            x <- byte_at bs (i + 1) ;;
            y <- byte_at bs (i + 2) ;;
            let '(idx, g) := emit_dummy b e g in
            inline_loop fuel ce bs ls locals (i + blen b)
              (queue_push (i + compute_offset x y) idx jumps) back todo (g, scs)
        | None =>
            match b with
            | B_jump_backward | B_jump2_backward =>
                match todo with
                | (a, begin) :: todo =>
                    if a =? i then
                      g <- emit_backwards_jump begin g ;;
                      inline_loop fuel ce bs ls locals (i + blen b) jumps back todo (g, scs)
                    else Err AssertionError
                | [] => Err IndexError
                end
            | _ =>
                c <- inline_bc ce bs ls locals i b (g, scs) ;;
                inline_loop fuel ce bs ls locals (i + blen b) jumps back todo c
            end
        end
  end.
(** inline: BcMethod (255-257), LiteralReturn, GlobalRead, FieldRead (method_trivial.py
    80-81, 135-136, 180-181); BcMethodNLR (696-700) is never a block. *)
Definition inline_method (ce : cenv) (m : meth) (c : ctx) : res ctx :=
  let '(g, scs) := c in
  match me_triv m with
  | Some (TLit l) => Ok (emit_push_constant l g, scs)
  | Some (TGlob n _) => Ok (emit_push_global ce n c)
  | Some (TFld f k) => Ok (emit_push_field_with_index f (k - 1) (max_ctx scs) g, scs)
  | Some (TFldW _ _) => Err AttributeError
  | None =>
      scs <- merge_into_scope m scs ;;
      inline_loop (S (length (me_bytes m))) ce (me_bytes m) (me_lits m) (me_locals m) 0 []
        (back_jump_queue (me_loops m)) [] (g, scs)
  end.

(** * Inlined control structures (bc/method_generation_context.py 587-772) *)
(** inline_then_branch (587-618): [None] when the argument is not a block literal.  The
    flag stays set. *)
Definition inline_then_branch (ce : cenv) (k : cond) (c : ctx) : res (option ctx) :=
  let '(g, scs) := c in
  if negb (last_one_of 0 PUSH_BLOCK g) then Ok None
  else
    x <- byte_at (g_bytes g) (length (g_bytes g) - 1) ;;
    g <- remove_last 1 g ;;
    let '(skip, g) := emit_jump_on k false g in
    m <- get_meth (g_lits g) x ;;
    c <- inline_method ce m (with_inl true g, scs) ;;
    let '(g, scs) := c in
    g <- patch_jump skip g ;;
    Ok (Some (reset_last g, scs)).
(** _has_two_literal_block_arguments, _extract_block_methods_and_remove_bytecodes
    (620-626, 674-684) *)
Definition two_blocks (g : mg) : bool :=
  last_one_of 0 PUSH_BLOCK g && last_one_of 1 PUSH_BLOCK g.
Definition extract_blocks (g : mg) : res (meth * meth * mg) :=
  let n := length (g_bytes g) in
  x1 <- byte_at (g_bytes g) (n - 3) ;;
  x2 <- byte_at (g_bytes g) (n - 1) ;;
  m1 <- get_meth (g_lits g) x1 ;;
  m2 <- get_meth (g_lits g) x2 ;;
  g <- remove_last 2 g ;;
  Ok (m1, m2, g).
(** inline_then_else_branches (628-672) *)
Definition inline_then_else (ce : cenv) (k : cond) (c : ctx) : res (option ctx) :=
  let '(g, scs) := c in
  if negb (two_blocks g) then Ok None
  else
    e <- extract_blocks g ;;
    let '(m1, m2, g) := e in
    let '(skip1, g) := emit_jump_on k true g in
    c <- inline_method ce m1 (with_inl true g, scs) ;;
    let '(g, scs) := c in
    let '(skip2, g) := emit_dummy B_jump 0 g in
    g <- patch_jump skip1 g ;;
    c <- inline_method ce m2 (reset_last g, scs) ;;
    let '(g, scs) := c in
    g <- patch_jump skip2 (with_inl false g) ;;
    Ok (Some (reset_last g, scs)).
(** inline_while (686-716), _complete_jumps_and_emit_returning_nil (757-772) *)
Definition inline_while (ce : cenv) (is_true : bool) (c : ctx) : res (option ctx) :=
  let '(g, scs) := c in
  if negb (two_blocks g) then Ok None
  else
    e <- extract_blocks g ;;
    let '(m1, m2, g) := e in
    let begin := length (g_bytes g) in
    c <- inline_method ce m1 (with_inl true g, scs) ;;
    let '(g, scs) := c in
    let '(skip, g) := emit_jump_on (if is_true then OnFalse else OnTrue) true g in
    c <- inline_method ce m2 (g, scs) ;;
    let '(g, scs) := c in
    g <- emit_pop (reset_last g) ;;
    g <- emit_backwards_jump begin g ;;
    g <- patch_jump skip g ;;
    let g := reset_last (emit_push_constant (LV VNil) g) in
    Ok (Some (with_inl false g, scs)).
(** inline_andor (718-755) *)
Definition inline_andor (ce : cenv) (is_or : bool) (c : ctx) : res (option ctx) :=
  let '(g, scs) := c in
  if negb (last_one_of 0 PUSH_BLOCK g) then Ok None
  else
    x <- byte_at (g_bytes g) (length (g_bytes g) - 1) ;;
    g <- remove_last 1 g ;;
    let '(skip1, g) := emit_jump_on (if is_or then OnTrue else OnFalse) true g in
    m <- get_meth (g_lits g) x ;;
    c <- inline_method ce m (with_inl true g, scs) ;;
    let '(g, scs) := c in
    let '(skip2, g) := emit_dummy B_jump 0 (with_inl false g) in
    g <- patch_jump skip1 g ;;
    let g := emit_push_constant (LV (som_bool is_or)) g in
    g <- patch_jump skip2 g ;;
    Ok (Some (reset_last g, scs)).

(** * Trivial methods and assemble (106-180, 473-585) *)
(** _assemble_literal_return (473-491) *)
Definition assemble_literal_return (g : mg) : res (option triv) :=
  if length (g_bytes g) =? blen (lastb 1 g) + blen (lastb 0 g) then
    match g_lits g with
    | [l] => Ok (Some (TLit l))
    | _ =>
        b <- byte_at (g_bytes g) 0 ;;
        if b =? num B_push_0 then Ok (Some (TLit (LV (VInt 0))))
        else if b =? num B_push_1 then Ok (Some (TLit (LV (VInt 1))))
        else if b =? num B_push_nil then Ok (Some (TLit (LV VNil)))
        else Err NotImplementedErr
    end
  else Ok None.
(** _assemble_global_return (493-523) *)
Definition assemble_global_return (mx : nat) (g : mg) : res (option triv) :=
  if length (g_bytes g) =? blen (lastb 1 g) + blen (lastb 0 g) then
    match g_lits g with
    | [LS n] =>
        Ok (Some (if text_eqb n t_true then TLit (LV VTrue)
                  else if text_eqb n t_false then TLit (LV VFalse)
                  else if text_eqb n t_nil then TLit (LV VNil)
                  else TGlob n mx))
    | [_] => Err AssertionError
    | _ => Err NotImplementedErr
    end
  else Ok None.
(** _assemble_field_getter (525-541) *)
Definition assemble_field_getter (g : mg) : res (option triv) :=
  let n := length (g_bytes g) in
  if n =? blen (lastb 1 g) + blen (lastb 0 g) then
    match lastb 1 g with
    | B_push_field_0 => Ok (Some (TFld 0 0))
    | B_push_field_1 => Ok (Some (TFld 1 0))
    | _ => i <- byte_at (g_bytes g) (n - 3) ;; c <- byte_at (g_bytes g) (n - 2) ;;
           Ok (Some (TFld i c))
    end
  else Ok None.
(** _assemble_field_setter (554-585) *)
Definition assemble_field_setter (g : mg) : res (option triv) :=
  if negb (last_one_of 1 POP_FIELD g) then Ok None
  else if negb (last_is 2 B_push_argument g) then Ok None
  else
    let n := length (g_bytes g) in
    let pop_len := blen (lastb 1 g) in
    if negb (n =? 1 + pop_len + blen (lastb 2 g)) then Ok None
    else
      f <- (match lastb 1 g with
            | B_pop_field_0 => Ok 0
            | B_pop_field_1 => Ok 1
            | _ => f <- byte_at (g_bytes g) (n - 3) ;;
                   c <- byte_at (g_bytes g) (n - 2) ;;
                   if c =? 0 then Ok f else Err AssertionError
            end) ;;
      a <- byte_at (g_bytes g) (n - (pop_len + 1 + 2)) ;;
      Ok (Some (TFldW f a)).
(** assemble_trivial_method (106-131), _assemble_field_getter_from_return (543-552) *)
Definition assemble_trivial (is_block : bool) (mx : nat) (g : mg) : res (option triv) :=
  r <- (if last_is 0 B_return_local g then
          if last_one_of 1 PUSH_CONST g then t <- assemble_literal_return g ;; Ok (Some t)
          else if last_is 1 B_push_global g then t <- assemble_global_return mx g ;; Ok (Some t)
          else if last_one_of 1 PUSH_FIELD g then t <- assemble_field_getter g ;; Ok (Some t)
          else Ok None
        else Ok None) ;;
  match r with
  | Some t => Ok t
  | None =>
      match lastb 0 g with
      | B_return_self => if is_block then Err AssertionError else assemble_field_setter g
      | B_return_field_0 => Ok (if length (g_bytes g) =? 1 then Some (TFld 0 0) else None)
      | B_return_field_1 => Ok (if length (g_bytes g) =? 1 then Some (TFld 1 0) else None)
      | B_return_field_2 => Ok (if length (g_bytes g) =? 1 then Some (TFld 2 0) else None)
      | _ => Ok None
      end
  end.
(** assemble (133-180).  max_stack_size is max_stack_depth + 2, and BcAbstractMethod adds 2
    more (method_bc.py 84); set_bytecode (141-146) asserts that each byte fits. *)
Definition assemble (label : nat) (c : ctx) : res meth :=
  let '(g, scs) := c in
  match scs with
  | sc :: outer =>
      t <- assemble_trivial (match outer with [] => false | _ => true end) (max_ctx scs) g ;;
      let m := Meth label (g_bytes g) (g_lits g) (sc_locals sc) (length (sc_args sc))
                    (g_loops g) (g_max g + 2 + 2) t in
      match t with
      | Some _ => Ok m
      | None => if forallb (fun b => b <=? 255) (g_bytes g) then Ok m else Err AssertionError
      end
  | [] => Err AttributeError
  end.

(** * The generator: what bc/parser.py calls, over the tree of a method *)
(** Literals of the source. *)
Inductive slit := SL (l : literal) | SA (ls : list slit).
(** Expressions.  [SInc e] and [SDec e] are [e + 1] and [e - 1] written with the literal 1;
    a block has its number, its parameters, its locals with their declarations, its
    statements, perhaps a final [^ e], and whether its last statement ends with a period. *)
Inductive src :=
| SVar (n : text)
| SLit (l : slit)
| SSend (sup : bool) (r : src) (sel : text) (args : list src)
| SInc (e : src)
| SDec (e : src)
| SAsgn (vs : list text) (e : src)
| SBlk (label : nat) (ps : list text) (ls : list (text * nat)) (ss : list src)
       (ret : option src) (period : bool).

Definition t_block_self : text := str "$blockSelf".
Definition placeholder : text := str "ArraySizeLiteralPlaceholder".
Definition t_array : text := str "Array".

(** _gen_push_variable (parser.py 419-442) *)
Definition gen_push_variable (ce : cenv) (n : text) (c : ctx) : res ctx :=
  let '(g, scs) := c in
  let '(r, scs) := find_var n scs in
  match r with
  | Some (k, f) =>
      let g := match f with
               | FArg i => emit3 B_push_argument i k 1 g
               | FLoc i _ => emit3 B_push_local i k 1 g
               end in
      Ok (g, mark_accessed k (ref_of f) scs)
  | None =>
      match find_text n (ce_fields ce) with
      | Some i =>
          let '(_, g) := add_literal_if_absent (LS n) g in
          let k := max_ctx scs in
          Ok (emit_push_field_with_index i k k g, mark_self scs)
      | None => Ok (emit_push_global ce n (g, scs))
      end
  end.
(** _gen_pop_variable (parser.py 444-460), emit_pop_field (bytecode_generator.py 121-128);
    an unknown name is not in the list of fields: ValueError. *)
Definition gen_pop_variable (ce : cenv) (n : text) (c : ctx) : res ctx :=
  let '(g, scs) := c in
  let '(r, scs) := find_var n scs in
  match r with
  | Some (k, f) =>
      let g := match f with
               | FArg i => emit3 B_pop_argument i k (-1) g
               | FLoc i _ => emit3 B_pop_local i k (-1) g
               end in
      Ok (g, mark_accessed k (ref_of f) scs)
  | None =>
      match find_text n (ce_fields ce) with
      | Some i =>
          let k := max_ctx scs in
          o <- optimize_inc_field i k g ;;
          Ok (if fst o then snd o else emit_pop_field_with_index i k (snd o), mark_self scs)
      | None => Err ValueError
      end
  end.
Fixpoint gen_pop_variables (ce : cenv) (vs : list text) (c : ctx) : res ctx :=
  match vs with
  | [] => Ok c
  | v :: r => c <- gen_pop_variable ce v c ;; gen_pop_variables ce r c
  end.
Fixpoint emit_dups (n : nat) (g : mg) : mg :=
  match n with O => g | S n => emit_dups n (emit1 B_dup 1 g) end.

(** _literal, _literal_array (339-400) *)
Fixpoint gen_lit (ce : cenv) (l : slit) (c : ctx) {struct l} : res ctx :=
  match l with
  | SL l => Ok (emit_push_constant l (fst c), snd c)
  | SA ls =>
      let '(g, scs) := c in
      p <- add_literal (LS placeholder) g ;;
      let '(idx, g) := p in
      let '(g, scs) := emit_push_global ce t_array (g, scs) in
      let g := emit2 B_push_constant idx 1 g in
      let g := emit_send t_new g in
      c <- (fix go (i : nat) (ls : list slit) (c : ctx) : res ctx :=
              match ls with
              | [] => Ok c
              | l :: ls =>
                  let g := emit_push_constant (LV (VInt (Z.of_nat i))) (fst c) in
                  c <- gen_lit ce l (g, snd c) ;;
                  go (S i) ls (emit_send t_at_put (fst c), snd c)
              end) 1 ls (g, scs) ;;
      let '(g, scs) := c in
      g <- update_literal (LS placeholder) idx (LV (VInt (Z.of_nat (length ls)))) g ;;
      Ok (g, scs)
  end.

(** The selectors for which _binary_message (240-245) and _keyword_message (273-313) try to
    inline. *)
Inductive special := KThen (k : cond) | KElse (k : cond) | KWhile (b : bool) | KAndOr (b : bool).
Definition special_of (sel : text) : option special :=
  if text_eqb sel (str "ifTrue:") then Some (KThen OnFalse)
  else if text_eqb sel (str "ifFalse:") then Some (KThen OnTrue)
  else if text_eqb sel (str "ifNil:") then Some (KThen OnNotNil)
  else if text_eqb sel (str "ifNotNil:") then Some (KThen OnNil)
  else if text_eqb sel (str "whileTrue:") then Some (KWhile true)
  else if text_eqb sel (str "whileFalse:") then Some (KWhile false)
  else if text_eqb sel (str "or:") then Some (KAndOr true)
  else if text_eqb sel (str "and:") then Some (KAndOr false)
  else if text_eqb sel (str "||") then Some (KAndOr true)
  else if text_eqb sel (str "&&") then Some (KAndOr false)
  else if text_eqb sel (str "ifTrue:ifFalse:") then Some (KElse OnFalse)
  else if text_eqb sel (str "ifFalse:ifTrue:") then Some (KElse OnTrue)
  else if text_eqb sel (str "ifNil:ifNotNil:") then Some (KElse OnNotNil)
  else if text_eqb sel (str "ifNotNil:ifNil:") then Some (KElse OnNil)
  else None.
Definition try_inline (ce : cenv) (s : special) (c : ctx) : res (option ctx) :=
  match s with
  | KThen k => inline_then_branch ce k c
  | KElse k => inline_then_else ce k c
  | KWhile b => inline_while ce b c
  | KAndOr b => inline_andor ce b c
  end.
(** The end of _unary_message, _binary_message and _keyword_message (205-214, 228-250,
    258-323), after receiver and arguments. *)
Definition gen_message (ce : cenv) (sup : bool) (sel : text) (c : ctx) : res ctx :=
  if sup then Ok (emit_super_send sel (fst c), snd c)
  else
    o <- (match special_of sel with Some s => try_inline ce s c | None => Ok None end) ;;
    match o with
    | Some c => Ok c
    | None => Ok (emit_send sel (fst c), snd c)
    end.

(** add_argument, add_local (compiler/method_generation_context.py 55-84): ParseError when
    a name is taken. *)
Fixpoint no_dup (l : list text) : bool :=
  match l with [] => true | x :: r => negb (existsb (text_eqb x) r) && no_dup r end.
Definition new_scope (args : list text) (ls : list (text * nat)) : res scope :=
  if no_dup args && no_dup (map fst ls)
  then Ok {| sc_args := args; sc_locals := map (fun l => (Plain (fst l), snd l)) ls;
             sc_acc := false; sc_thr := false; sc_catch := false; sc_out := [] |}
  else Err PyException.

Section Gen.
Variable ce : cenv.
(** The end of a block: _block_body (60-88) and nested_block (402-417). *)
Definition finish_block (c : ctx) : res ctx :=
  let '(g, scs) := c in
  let g := match g_bytes g with [] => emit_push_constant (LV VNil) g | _ => g end in
  g <- emit_return_local g ;; Ok (g, scs).
(** _result in a block (111-113) *)
Definition finish_return (c : ctx) : res ctx :=
  let '(g, scs) := c in
  let g := emit2 B_return_non_local (max_ctx scs) 0 g in
  scs <- make_catch scs ;; Ok (g, scs).

(** _expression, _assignation, _evaluation, _primary, the messages, nested_block,
    _block_body (parser.py 60-337, 402-417). *)
Fixpoint gen (e : src) (c : ctx) {struct e} : res ctx :=
  match e with
  | SVar n => gen_push_variable ce n c
  | SLit l => gen_lit ce l c
  | SSend sup r sel args =>
      c <- gen r c ;;
      c <- (fix go (l : list src) (c : ctx) : res ctx :=
              match l with [] => Ok c | a :: l => c <- gen a c ;; go l c end) args c ;;
      gen_message ce sup sel c
  | SInc e => c <- gen e c ;; Ok (emit1 B_inc 0 (fst c), snd c)
  | SDec e => c <- gen e c ;; Ok (emit1 B_dec 0 (fst c), snd c)
  | SAsgn vs e =>
      let '(g, scs) := c in
      let g := fold_left (fun g v => snd (add_literal_if_absent (LS v) g)) vs g in
      c <- gen e (g, scs) ;;
      gen_pop_variables ce vs (emit_dups (length vs) (fst c), snd c)
  | SBlk label ps ls ss ret period =>
      let '(g, scs) := c in
      sc <- new_scope (t_block_self :: ps) ls ;;
      c <- (fix go (ss : list src) (c : ctx) : res ctx :=
              match ss with
              | [] =>
                  match ret with
                  | Some e => c <- gen e c ;; finish_return c
                  | None => finish_block c
                  end
              | e :: ss' =>
                  c <- gen e c ;;
                  match ss', ret with
                  | [], None =>
                      if period then
                        g <- emit_pop (fst c) ;; g <- remove_last_pop g ;;
                        finish_block (g, snd c)
                      else finish_block c
                  | _, _ => g <- emit_pop (fst c) ;; go ss' (g, snd c)
                  end
              end) ss (mg_new (g_peep g), sc :: scs) ;;
      m <- assemble label c ;;
      match snd c with
      | sc :: scs => Ok (emit_push_block m (requires_context sc) g, scs)
      | [] => Err AttributeError
      end
  end.
(** The statements of a method, _method_block and _block_body (45-88), _result (90-116);
    [seen_period] is [period] for the last statement. *)
Fixpoint gen_method_body (ss : list src) (ret : option src) (period : bool) (c : ctx) : res ctx :=
  match ss with
  | [] =>
      match ret with
      | Some (SVar n) =>
          if text_eqb n t_self then g <- emit_return_self (fst c) ;; Ok (g, snd c)
          else c <- gen (SVar n) c ;; g <- emit_return_local (fst c) ;; Ok (g, snd c)
      | Some e => c <- gen e c ;; g <- emit_return_local (fst c) ;; Ok (g, snd c)
      | None => g <- emit_return_self (fst c) ;; Ok (g, snd c)
      end
  | e :: ss' =>
      c <- gen e c ;;
      match ss', ret with
      | [], None =>
          if period then g <- emit_pop (fst c) ;; g <- emit_return_self g ;; Ok (g, snd c)
          else g <- emit_return_self (fst c) ;; Ok (g, snd c)
      | _, _ => g <- emit_pop (fst c) ;; gen_method_body ss' ret period (g, snd c)
      end
  end.
(** A method: parameters, locals, statements; [p]: with the peephole rules? *)
Definition gen_method (p : bool) (ps : list text) (ls : list (text * nat)) (ss : list src)
  (ret : option src) (period : bool) : res ctx :=
  sc <- new_scope (t_self :: ps) ls ;;
  gen_method_body ss ret period (mg_new p, [sc]).
Definition compile_with (p : bool) (ps : list text) (ls : list (text * nat)) (ss : list src)
  (ret : option src) (period : bool) : res meth :=
  c <- gen_method p ps ls ss ret period ;; assemble 0 c.
Definition compile_method := compile_with true.
(** The same compiler with the peephole rules left out. *)
Definition compile_plain := compile_with false.
End Gen.
