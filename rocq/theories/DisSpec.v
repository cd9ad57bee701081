(** What the listing of a method is. *)
From Coq Require Import ZArith String Ascii List.
From Verif Require Import Base LexModel LexSpec ParseModel BcModel BcInterp NtxSpec DisModel.
Import ListNotations.
Open Scope nat_scope.
Open Scope list_scope.

(** * The instructions of a method *)
(** An instruction: its address, its bytecode, its operands. *)
Definition ins := (nat * bc * list nat)%type.
(** [decodes a bs code]: the bytes [bs], which begin at address [a], are the instructions
    [code], one after the other, nothing between them and nothing left over. *)
Inductive decodes : nat -> list nat -> list ins -> Prop :=
| no_more a : decodes a [] []
| one_more a b ops bs code : b <> B_invalid -> 1 + length ops = blen b ->
    decodes (a + blen b) bs code -> decodes a (num b :: ops ++ bs) ((a, b, ops) :: code).
Definition address (x : ins) : nat := fst (fst x).

(** * Lines *)
Definition mnemonic (b : bc) : string :=
  match b with
  | B_halt => "HALT"
  | B_dup => "DUP"
  | B_push_frame => "PUSH_FRAME"
  | B_push_frame_0 => "PUSH_FRAME_0"
  | B_push_frame_1 => "PUSH_FRAME_1"
  | B_push_frame_2 => "PUSH_FRAME_2"
  | B_push_inner => "PUSH_INNER"
  | B_push_inner_0 => "PUSH_INNER_0"
  | B_push_inner_1 => "PUSH_INNER_1"
  | B_push_inner_2 => "PUSH_INNER_2"
  | B_push_field => "PUSH_FIELD"
  | B_push_field_0 => "PUSH_FIELD_0"
  | B_push_field_1 => "PUSH_FIELD_1"
  | B_push_block => "PUSH_BLOCK"
  | B_push_block_no_ctx => "PUSH_BLOCK_NO_CTX"
  | B_push_constant => "PUSH_CONSTANT"
  | B_push_constant_0 => "PUSH_CONSTANT_0"
  | B_push_constant_1 => "PUSH_CONSTANT_1"
  | B_push_constant_2 => "PUSH_CONSTANT_2"
  | B_push_0 => "PUSH_0"
  | B_push_1 => "PUSH_1"
  | B_push_nil => "PUSH_NIL"
  | B_push_global => "PUSH_GLOBAL"
  | B_pop => "POP"
  | B_pop_frame => "POP_FRAME"
  | B_pop_frame_0 => "POP_FRAME_0"
  | B_pop_frame_1 => "POP_FRAME_1"
  | B_pop_frame_2 => "POP_FRAME_2"
  | B_pop_inner => "POP_INNER"
  | B_pop_inner_0 => "POP_INNER_0"
  | B_pop_inner_1 => "POP_INNER_1"
  | B_pop_inner_2 => "POP_INNER_2"
  | B_pop_field => "POP_FIELD"
  | B_pop_field_0 => "POP_FIELD_0"
  | B_pop_field_1 => "POP_FIELD_1"
  | B_send_1 => "SEND_1"
  | B_send_2 => "SEND_2"
  | B_send_3 => "SEND_3"
  | B_send_n => "SEND_N"
  | B_super_send => "SUPER_SEND"
  | B_return_local => "RETURN_LOCAL"
  | B_return_non_local => "RETURN_NON_LOCAL"
  | B_return_self => "RETURN_SELF"
  | B_return_field_0 => "RETURN_FIELD_0"
  | B_return_field_1 => "RETURN_FIELD_1"
  | B_return_field_2 => "RETURN_FIELD_2"
  | B_inc => "INC"
  | B_dec => "DEC"
  | B_inc_field => "INC_FIELD"
  | B_inc_field_push => "INC_FIELD_PUSH"
  | B_jump => "JUMP"
  | B_jump_on_true_top_nil => "JUMP_ON_TRUE_TOP_NIL"
  | B_jump_on_false_top_nil => "JUMP_ON_FALSE_TOP_NIL"
  | B_jump_on_true_pop => "JUMP_ON_TRUE_POP"
  | B_jump_on_false_pop => "JUMP_ON_FALSE_POP"
  | B_jump_on_not_nil_top_top => "JUMP_ON_NOT_NIL_TOP_TOP"
  | B_jump_on_nil_top_top => "JUMP_ON_NIL_TOP_TOP"
  | B_jump_on_not_nil_pop => "JUMP_ON_NOT_NIL_POP"
  | B_jump_on_nil_pop => "JUMP_ON_NIL_POP"
  | B_jump_backward => "JUMP_BACKWARD"
  | B_jump2 => "JUMP2"
  | B_jump2_on_true_top_nil => "JUMP2_ON_TRUE_TOP_NIL"
  | B_jump2_on_false_top_nil => "JUMP2_ON_FALSE_TOP_NIL"
  | B_jump2_on_true_pop => "JUMP2_ON_TRUE_POP"
  | B_jump2_on_false_pop => "JUMP2_ON_FALSE_POP"
  | B_jump2_on_not_nil_top_top => "JUMP2_ON_NOT_NIL_TOP_TOP"
  | B_jump2_on_nil_top_top => "JUMP2_ON_NIL_TOP_TOP"
  | B_jump2_on_not_nil_pop => "JUMP2_ON_NOT_NIL_POP"
  | B_jump2_on_nil_pop => "JUMP2_ON_NIL_POP"
  | B_jump2_backward => "JUMP2_BACKWARD"
  | B_q_super_send_1 => "Q_SUPER_SEND_1"
  | B_q_super_send_2 => "Q_SUPER_SEND_2"
  | B_q_super_send_3 => "Q_SUPER_SEND_3"
  | B_q_super_send_n => "Q_SUPER_SEND_N"
  | B_push_local => "PUSH_LOCAL"
  | B_push_argument => "PUSH_ARGUMENT"
  | B_pop_local => "POP_LOCAL"
  | B_pop_argument => "POP_ARGUMENT"
  | B_invalid => "INVALID"
  end.
Definition decimal (n : nat) (t : text) : Prop := written t (Z.of_nat n).
(** A number in a column of four characters; longer ones have a space before them. *)
Definition column (n : nat) (t : text) : Prop :=
  exists k d, decimal n d /\ t = repeat " "%char (S k) ++ d /\ length t = Nat.max 4 (S (length d)).

(** What is written about the operands; [ob] tells how objects are shown. *)
Inductive operands (ob : objects) (m : meth) (a : nat) : bc -> list nat -> text -> Prop :=
| about_none b : blen b = 1 -> operands ob m a b [] []
| about_local b i c ti tc : In b [B_push_local; B_pop_local] -> decimal i ti -> decimal c tc ->
    operands ob m a b [i; c] (chars "local: " ++ ti ++ chars ", context: " ++ tc)
| about_argument b i c ti tc : In b [B_push_argument; B_pop_argument] -> decimal i ti -> decimal c tc ->
    operands ob m a b [i; c] (chars "argument: " ++ ti ++ chars ", context " ++ tc)
| about_frame b i c ti : In b [B_push_frame; B_pop_frame] -> decimal i ti ->
    operands ob m a b [i; c] (chars "idx: " ++ ti)
| about_inner b i c ti tc : In b [B_push_inner; B_pop_inner] -> decimal i ti -> decimal c tc ->
    operands ob m a b [i; c] (chars "idx: " ++ ti ++ chars ", context: " ++ tc)
| about_fixed b i c : In b [B_push_frame_0; B_push_frame_1; B_push_frame_2;
      B_pop_frame_0; B_pop_frame_1; B_pop_frame_2; B_push_inner_0; B_push_inner_1; B_push_inner_2;
      B_pop_inner_0; B_pop_inner_1; B_pop_inner_2] ->
    operands ob m a b [i; c] []
| about_field b i c ti tc fs f : In b [B_push_field; B_pop_field; B_inc_field; B_inc_field_push] ->
    decimal i ti -> decimal c tc -> o_fields ob = Some fs -> nth_error fs i = Some f ->
    operands ob m a b [i; c] (chars "(index: " ++ ti ++ chars ", context " ++ tc ++ chars ") field: #" ++ f)
| about_no_class b i c ti tc : In b [B_push_field; B_pop_field; B_inc_field; B_inc_field_push] ->
    decimal i ti -> decimal c tc -> o_fields ob = None ->
    operands ob m a b [i; c]
      (chars "(index: " ++ ti ++ chars ", context " ++ tc ++ chars ") field: Holder Not Set")
| about_constant i ti l s : decimal i ti -> nth_error (me_lits m) i = Some l -> lit_str ob l = Ok s ->
    operands ob m a B_push_constant [i]
      (chars "(index: " ++ ti ++ chars ") value: (" ++ s ++ chars " class: " ++ lit_class ob l ++ chars ") ")
| about_global i ti l s : decimal i ti -> nth_error (me_lits m) i = Some l -> lit_str ob l = Ok s ->
    operands ob m a B_push_global [i] (chars "(index: " ++ ti ++ chars ") value: " ++ s)
| about_send b i ti l s : In b [B_send_1; B_send_2; B_send_3; B_send_n; B_super_send;
      B_q_super_send_1; B_q_super_send_2; B_q_super_send_3; B_q_super_send_n] ->
    decimal i ti -> nth_error (me_lits m) i = Some l -> lit_str ob l = Ok s ->
    operands ob m a b [i] (chars "(index: " ++ ti ++ chars ") signature: " ++ s)
| about_return c tc : decimal c tc ->
    operands ob m a B_return_non_local [c] (chars "context: " ++ tc)
| about_jump b x y tof tto k wide : jump_form b = Some (k, wide) -> k <> JBack ->
    decimal (x + 256 * y) tof -> decimal (a + (x + 256 * y)) tto ->
    operands ob m a b [x; y] (chars "(jump offset: " ++ tof ++ chars " -> jump target: " ++ tto ++ chars ")")
| about_back b x y tof tto wide : jump_form b = Some (JBack, wide) ->
    decimal (x + 256 * y) tof -> written tto (Z.of_nat a - Z.of_nat (x + 256 * y)) ->
    operands ob m a b [x; y] (chars "(jump offset: " ++ tof ++ chars " -> jump target: " ++ tto ++ chars ")")
(* the bytecode for blocks without context is not known to the listing *)
| about_block_no_ctx i : operands ob m a B_push_block_no_ctx [i] (chars "<incorrect bytecode>").

(** * Listings *)
Definition line (t : text) : text := t ++ [newline].
Definition tab : text := chars "	".
(** The text for a method at an indentation: an opening parenthesis, the numbers of locals,
    stack elements and bytes, the instructions in order, a closing parenthesis.  The method
    of a block is listed, further to the right, where the block is made. *)
Inductive listed (ob : objects) : meth -> text -> text -> Prop :=
| a_method m ind code ts tl tx tb : me_triv m = None -> decodes 0 (me_bytes m) code ->
    entries ob m ind code ts ->
    decimal (length (me_locals m)) tl -> written tx (me_max m) -> decimal (length (me_bytes m)) tb ->
    listed ob m ind (line (chars "(") ++
      line (ind ++ chars "<" ++ tl ++ chars " locals, " ++ tx ++ chars " stack, " ++ tb ++ chars " bc_count>") ++
      ts ++ line (ind ++ chars ")"))
with entries (ob : objects) : meth -> text -> list ins -> text -> Prop :=
| no_entries m ind : entries ob m ind [] []
| more_entries m ind x code t ts : entry ob m ind x t -> entries ob m ind code ts ->
    entries ob m ind (x :: code) (t ++ ts)
with entry (ob : objects) : meth -> text -> ins -> text -> Prop :=
| an_entry m ind a b ops ta to : b <> B_push_block -> column a ta -> operands ob m a b ops to ->
    entry ob m ind (a, b, ops) (line (ind ++ ta ++ chars ":" ++ chars (mnemonic b) ++ chars "  " ++ to))
| a_block m ind a i m' ta ti t : column a ta -> decimal i ti -> nth_error (me_lits m) i = Some (LM m') ->
    listed ob m' (ind ++ tab) t ->
    entry ob m ind (a, B_push_block, [i])
      (ind ++ ta ++ chars ":" ++ chars (mnemonic B_push_block) ++ chars "  block: (index: " ++ ti ++ chars ") " ++ t).
Scheme listed_mut := Minimality for listed Sort Prop
with entries_mut := Minimality for entries Sort Prop
with entry_mut := Minimality for entry Sort Prop.
Combined Scheme listed_all from listed_mut, entries_mut, entry_mut.

(** The listing of a class: a heading for each method of its table, in the order of the
    table, with the listing of the method or the word primitive. *)
Inductive class_listed (ob : objects) (class : text) : list (text * option meth) -> text -> Prop :=
| no_methods : class_listed ob class [] []
| a_primitive s rest ts : class_listed ob class rest ts ->
    class_listed ob class ((s, None) :: rest)
      (line (chars "#" ++ class ++ chars ">>#" ++ s ++ chars " = <primitive>") ++ ts)
| one_method s m rest t ts : listed ob m tab t -> class_listed ob class rest ts ->
    class_listed ob class ((s, Some m) :: rest)
      ((chars "#" ++ class ++ chars ">>#" ++ s ++ chars " = " ++ t) ++ ts).

(** * What can be read back *)
(** The methods that are listed within the listing of a method. *)
Inductive shown (m : meth) : meth -> Prop :=
| shown_itself : shown m m
| shown_block m' code a i m'' : shown m m' -> decodes 0 (me_bytes m') code ->
    In (a, B_push_block, [i]) code -> nth_error (me_lits m') i = Some (LM m'') -> shown m m''.
(** Bytecodes that the compiler writes and whose operands the listing gives. *)
Definition told (b : bc) : Prop :=
  ~ In b [B_push_block_no_ctx; B_push_frame; B_pop_frame;
          B_push_frame_0; B_push_frame_1; B_push_frame_2; B_pop_frame_0; B_pop_frame_1; B_pop_frame_2;
          B_push_inner_0; B_push_inner_1; B_push_inner_2; B_pop_inner_0; B_pop_inner_1; B_pop_inner_2].
Definition one_line (t : text) : Prop := ~ In newline t.
(** A method whose bytes are bytes, whose bytecodes are told and whose literals and fields
    are shown within a line. *)
Definition plain_method (ob : objects) (m : meth) : Prop :=
  Forall (fun n => n < 256) (me_bytes m) /\
  (forall code, decodes 0 (me_bytes m) code -> Forall (fun x => told (snd (fst x))) code) /\
  (forall i l s, nth_error (me_lits m) i = Some l -> lit_str ob l = Ok s -> one_line s /\ one_line (lit_class ob l)) /\
  (forall fs i f, o_fields ob = Some fs -> nth_error fs i = Some f -> one_line f).
(** Methods with the same code: the same bytes, the same selectors where something is sent
    or a global is read, blocks with the same code where blocks are made. *)
Inductive same_code : meth -> meth -> Prop :=
| the_same m1 m2 : me_bytes m1 = me_bytes m2 ->
    (forall code a b i t1 t2, decodes 0 (me_bytes m1) code -> In (a, b, [i]) code ->
       In b [B_push_global; B_send_1; B_send_2; B_send_3; B_send_n; B_super_send] ->
       nth_error (me_lits m1) i = Some (LS t1) -> nth_error (me_lits m2) i = Some (LS t2) -> t1 = t2) ->
    (forall code a i b1 b2, decodes 0 (me_bytes m1) code -> In (a, B_push_block, [i]) code ->
       nth_error (me_lits m1) i = Some (LM b1) -> nth_error (me_lits m2) i = Some (LM b2) -> same_code b1 b2) ->
    same_code m1 m2.
