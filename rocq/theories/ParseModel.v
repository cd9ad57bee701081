(** The expression, block and method parts of the two parsers: som/compiler/parser.py
    (shared), som/compiler/ast/parser.py and som/compiler/bc/parser.py.

    A parser state is the list of tokens from the current one on (the current token is
    [_sym], [_text]; the list is what C33 and C36 say the lexer delivers, so that
    [_next_sym] after a peek is the kind of the second token) and the field [_super_send].
    Source coordinates are left out.  ParseError is [PyException]. *)
From Coq Require Import ZArith Bool String Ascii List.
From Verif Require Import Base TxtModel LexModel.
Import ListNotations.
Open Scope nat_scope.
Open Scope list_scope.

(** * Trees *)
(** Literals; numbers keep their digits (parser.py 274-327 reads them, see NumText). *)
Inductive lit :=
| LInt (negative : bool) (digits : text)
| LDbl (negative : bool) (digits : text)
| LStr (t : text)
| LSym (t : text)
| LArr (ls : list lit).

(** [Send true r s args] is a message whose lookup starts in the superclass
    (UnarySuper, BinarySuper, TernarySuper, NArySuper / SUPER_SEND), [Send false ...] an
    ordinary one.  [Asgn [a; b] e] is [a := b := e].  A block has its parameters, its
    locals, its statements and perhaps a final [^ e]. *)
Inductive expr :=
| Var (n : text)
| Lit (l : lit)
| Send (super : bool) (receiver : expr) (selector : text) (args : list expr)
| Asgn (vars : list text) (e : expr)
| Blk (params locals : list text) (stmts : list expr) (ret : option expr).

Definition str (s : string) : text := list_ascii_of_string s.
Definition t_super : text := str "super".
Definition t_self : text := str "self".

(** * Token tests (parser.py 19-56, 139-143) *)
Definition sym_eq_dec (a b : sym) : {a = b} + {a <> b}.
Proof. decide equality. Defined.
Definition sym_eqb (a b : sym) : bool := if sym_eq_dec a b then true else false.
Definition text_eqb (a b : text) : bool := if list_eq_dec ascii_dec a b then true else false.

(** 142-143 *)
Definition is_ident (k : sym) : bool :=
  match k with Identifier | Primitive => true | _ => false end.
(** _binary_op_syms (36-54); _single_op_syms (19-34) is the same set. *)
Definition is_single_op (k : sym) : bool :=
  match k with
  | Or | Comma | Minus | Equal | Not | And | Star | Div | Mod | Plus | More | Less | At | Per => true
  | _ => false
  end.
(** The test [_sym == OperatorSequence or _sym_in(_binary_op_syms)]. *)
Definition is_op (k : sym) : bool :=
  match k with OperatorSequence => true | _ => is_single_op k end.

Notation tokens := (list token).
(** _sym, _text; [_next_sym] is [kind (tl ts)].  NONE follows the last token. *)
Definition kind (ts : tokens) : sym := match ts with (k, _) :: _ => k | [] => NONE end.
Definition ttext (ts : tokens) : text := match ts with (_, t) :: _ => t | [] => [] end.

(** _accept, _expect (145-162) *)
Definition accept (s : sym) (ts : tokens) : bool * tokens :=
  if sym_eqb (kind ts) s then (true, tl ts) else (false, ts).
Definition expect (s : sym) (ts : tokens) : res tokens :=
  if sym_eqb (kind ts) s then Ok (tl ts) else Err PyException.
(** _identifier, _variable, _argument, _unary_selector (215-216, 230-235, 242-243, 252-253) *)
Definition identifier (ts : tokens) : res (text * tokens) :=
  if is_ident (kind ts) then Ok (ttext ts, tl ts) else Err PyException.
(** _binary_selector (218-228) *)
Definition binary_selector (ts : tokens) : res (text * tokens) :=
  if is_op (kind ts) then Ok (ttext ts, tl ts) else Err PyException.
(** _keyword (237-240) *)
Definition keyword (ts : tokens) : res (text * tokens) :=
  ts' <- expect Keyword ts ;; Ok (ttext ts, ts').
(** _selector, _keyword_selector (329-340) *)
Definition selector (ts : tokens) : res (text * tokens) :=
  if is_op (kind ts) then binary_selector ts
  else match kind ts with
       | Keyword | KeywordSequence => Ok (ttext ts, tl ts)
       | _ => identifier ts
       end.
(** _literal_decimal, _literal_integer, _literal_double (274-327): the token is consumed. *)
Definition literal_decimal (neg : bool) (ts : tokens) : res (lit * tokens) :=
  match kind ts with
  | Integer => Ok (LInt neg (ttext ts), tl ts)
  | Double => Ok (LDbl neg (ttext ts), tl ts)
  | _ => Err PyException
  end.
(** _literal_symbol after the pound sign (ast/parser.py 491-494, bc/parser.py 362-366) *)
Definition literal_symbol (ts : tokens) : res (lit * tokens) :=
  match kind ts with
  | STString => Ok (LSym (ttext ts), tl ts)
  | _ => r <- selector ts ;; let '(s, ts') := r in Ok (LSym s, ts')
  end.
(** _locals (245-250): names as long as there are any.  The duplicate checks of add_local
    and add_argument belong to the scopes (see Scope). *)
Fixpoint names (ts : tokens) : list text * tokens :=
  match ts with
  | (k, t) :: ts' => if is_ident k then let '(xs, r) := names ts' in (t :: xs, r) else ([], ts)
  | [] => ([], [])
  end.
(** _block_arguments (351-359), the loop: [: name] as long as there is a colon. *)
Fixpoint block_arguments (ts : tokens) : res (list text * tokens) :=
  match ts with
  | (Colon, _) :: ts' =>
      match ts' with
      | (k, x) :: ts'' =>
          if is_ident k then
            r <- block_arguments ts'' ;; let '(xs, ts3) := r in Ok (x :: xs, ts3)
          else Err PyException
      | [] => Err PyException
      end
  | _ => Ok ([], ts)
  end.
(** _nested_block_signature (398-409) with _block_pattern (347-349).  The implicit first
    argument of a block is left out. *)
Definition nested_block_signature (ts : tokens) : res (list text * tokens) :=
  ts <- expect NewBlock ts ;;
  match kind ts with
  | Colon => r <- block_arguments ts ;; let '(xs, ts) := r in
             ts <- expect Or ts ;; Ok (xs, ts)
  | _ => Ok ([], ts)
  end.
(** The locals of _block_contents (372-375) *)
Definition block_locals (ts : tokens) : res (list text * tokens) :=
  match kind ts with
  | Or => let '(xs, ts) := names (tl ts) in ts <- expect Or ts ;; Ok (xs, ts)
  | _ => Ok ([], ts)
  end.
(** _pattern (187-213): the selector and the parameter names. *)
Fixpoint keyword_pattern (ts : tokens) : res (text * list text * tokens) :=
  match ts with
  | (Keyword, s) :: ts' =>
      match ts' with
      | (k, x) :: ts'' =>
          if is_ident k then
            r <- keyword_pattern ts'' ;; let '(sel, xs, ts3) := r in Ok (s ++ sel, x :: xs, ts3)
          else Err PyException
      | [] => Err PyException
      end
  | _ => Ok ([], [], ts)
  end.
Definition pattern (ts : tokens) : res (text * list text * tokens) :=
  if is_ident (kind ts) then Ok (ttext ts, [], tl ts)
  else match kind ts with
       | Keyword => keyword_pattern ts
       | _ => r <- binary_selector ts ;; let '(s, ts) := r in
              r <- identifier ts ;; let '(x, ts) := r in Ok (s, [x], ts)
       end.

(** * Literals of the AST parser (ast/parser.py 473-507) *)
Fixpoint literal (n : nat) (ts : tokens) : res (lit * tokens) :=
  match n with
  | O => Err OutOfFuel
  | S n' =>
      match kind ts with
      | Pound =>
          if sym_eqb (kind (tl ts)) NewTerm then
            r <- literals n' (tl (tl ts)) ;; let '(ls, ts') := r in Ok (LArr ls, ts')
          else literal_symbol (tl ts)
      | STString => Ok (LStr (ttext ts), tl ts)
      | Minus => literal_decimal true (tl ts)
      | _ => literal_decimal false ts
      end
  end
(** the loop 504-506, with the closing parenthesis *)
with literals (n : nat) (ts : tokens) : res (list lit * tokens) :=
  match n with
  | O => Err OutOfFuel
  | S n' =>
      match kind ts with
      | EndTerm => Ok ([], tl ts)
      | _ => r <- literal n' ts ;; let '(l, ts) := r in
             r <- literals n' ts ;; let '(ls, ts) := r in Ok (l :: ls, ts)
      end
  end.

Definition pstate := (tokens * bool)%type.

(** * The AST parser *)
Section Ast.
(** [E] is _expression as called from nested terms and blocks; [n] bounds the loops. *)
Variable E : pstate -> res (expr * pstate).
Variable n : nat.

(** _block_body (ast/parser.py 52-72) with _result (84-96).  The answer is the statements
    and the expression of a final [^].  (The read of self that is appended at the end of
    a method, 62-69, and the nil of an empty block, 75-78, belong to the meaning of a
    body, not to its parse.) *)
Fixpoint a_block_body (k : nat) (st : pstate) : res (list expr * option expr * pstate) :=
  match k with
  | O => Err OutOfFuel
  | S k' =>
      let '(ts, f) := st in
      match kind ts with
      | Exit =>
          r <- E (tl ts, f) ;; let '(e, (ts, f)) := r in
          Ok ([], Some e, (snd (accept Period ts), f))
      | EndBlock | EndTerm => Ok ([], None, st)
      | _ =>
          r <- E st ;; let '(e, (ts, f)) := r in
          r <- a_block_body k' (snd (accept Period ts), f) ;;
          let '(es, ret, st) := r in Ok (e :: es, ret, st)
      end
  end.

(** nested_block (509-513), _block_contents (parser.py 372-379) *)
Definition a_nested_block (st : pstate) : res (expr * pstate) :=
  let '(ts, f) := st in
  r <- nested_block_signature ts ;; let '(ps, ts) := r in
  r <- block_locals ts ;; let '(ls, ts) := r in
  r <- a_block_body n (ts, f) ;; let '(es, ret, (ts, f)) := r in
  ts <- expect EndBlock ts ;;
  Ok (Blk ps ls es ret, (ts, f)).

(** _primary (142-170), _nested_term (parser.py 268-272) *)
Definition a_primary (st : pstate) : res (expr * pstate) :=
  let '(ts, f) := st in
  if is_ident (kind ts) then
    if text_eqb (ttext ts) t_super then Ok (Var t_self, (tl ts, true))
    else Ok (Var (ttext ts), (tl ts, f))
  else
    match kind ts with
    | NewTerm =>
        r <- E (tl ts, f) ;; let '(e, (ts, f)) := r in
        ts <- expect EndTerm ts ;; Ok (e, (ts, f))
    | NewBlock => a_nested_block st
    | _ => r <- literal n ts ;; let '(l, ts) := r in Ok (Lit l, (ts, f))
    end.

(** while _sym_is_identifier: _unary_message (175-176, 240-241, 188-199) *)
Fixpoint a_unary_loop (e : expr) (ts : tokens) (f : bool) : expr * pstate :=
  match ts with
  | (k, t) :: ts' => if is_ident k then a_unary_loop (Send f e t []) ts' false else (e, (ts, f))
  | [] => (e, (ts, f))
  end.

(** _binary_operand (237-243) *)
Definition a_binary_operand (st : pstate) : res (expr * pstate) :=
  r <- a_primary st ;; let '(e, (ts, f)) := r in Ok (a_unary_loop e ts f).

(** _binary_message (201-235).  Inlining of && and || and the node for [+ 1] choose
    another implementation of the same message; see Inl. *)
Definition a_binary_message (e : expr) (st : pstate) : res (expr * pstate) :=
  let '(ts, is_super) := st in
  r <- binary_selector ts ;; let '(s, ts) := r in
  r <- a_binary_operand (ts, false) ;; let '(a, st) := r in
  Ok (Send is_super e s [a], st).

(** the loops 178-181, 457-460 *)
Fixpoint a_binary_loop (k : nat) (e : expr) (st : pstate) : res (expr * pstate) :=
  match k with
  | O => Err OutOfFuel
  | S k' =>
      if is_op (kind (fst st)) then
        r <- a_binary_message e st ;; let '(e, st) := r in a_binary_loop k' e st
      else Ok (e, st)
  end.

(** _formula (454-463) *)
Definition a_formula (st : pstate) : res (expr * pstate) :=
  r <- a_binary_operand st ;; let '(e, st) := r in
  r <- a_binary_loop n e st ;; let '(e, (ts, _)) := r in Ok (e, (ts, false)).

(** the loop 343-345 *)
Fixpoint a_keyword_loop (k : nat) (st : pstate) : res (text * list expr * pstate) :=
  match k with
  | O => Err OutOfFuel
  | S k' =>
      let '(ts, f) := st in
      match kind ts with
      | Keyword =>
          r <- keyword ts ;; let '(s, ts) := r in
          r <- a_formula (ts, f) ;; let '(a, st) := r in
          r <- a_keyword_loop k' st ;; let '(sel, args, st) := r in
          Ok (s ++ sel, a :: args, st)
      | _ => Ok ([], [], st)
      end
  end.

(** _keyword_message (336-452); the flag is read but not cleared before the arguments
    are parsed.  Inlining (352-426): see Inl. *)
Definition a_keyword_message (e : expr) (st : pstate) : res (expr * pstate) :=
  let is_super := snd st in
  r <- a_keyword_loop n st ;; let '(sel, args, st) := r in
  Ok (Send is_super e sel args, st).

(** _messages (172-186) *)
Definition a_messages (e : expr) (st : pstate) : res (expr * pstate) :=
  let '(ts, f) := st in
  let '(e, st) := a_unary_loop e ts f in
  r <- a_binary_loop n e st ;; let '(e, st) := r in
  match kind (fst st) with
  | Keyword => a_keyword_message e st
  | _ => Ok (e, st)
  end.

(** the test of _evaluation (131-136) *)
Definition starts_message (k : sym) : bool :=
  is_ident k || sym_eqb k Keyword || is_op k.

(** _evaluation (128-140) *)
Definition a_evaluation (st : pstate) : res (expr * pstate) :=
  r <- a_primary st ;; let '(e, st) := r in
  r <- (if starts_message (kind (fst st)) then a_messages e st else Ok (e, st)) ;;
  let '(e, (ts, _)) := r in Ok (e, (ts, false)).

(** _assignments, _assignment (101-126): the variables and the value. *)
Fixpoint a_assignments (k : nat) (st : pstate) : res (list text * expr * pstate) :=
  match k with
  | O => Err OutOfFuel
  | S k' =>
      let '(ts, f) := st in
      r <- identifier ts ;; let '(v, ts) := r in
      ts <- expect Assign ts ;;
      r <- (if sym_eqb (kind (tl ts)) Assign then a_assignments k' (ts, f)
            else r <- a_evaluation (ts, f) ;; let '(e, st) := r in Ok ([], e, st)) ;;
      let '(vs, e, st) := r in
      (* _variable_write (531-556): self and super are refused; scopes: see Scope *)
      if text_eqb v t_self || text_eqb v t_super then Err PyException
      else Ok (v :: vs, e, st)
  end.

(** _expression (parser.py 255-260) *)
Definition a_expression_ (st : pstate) : res (expr * pstate) :=
  if sym_eqb (kind (tl (fst st))) Assign then
    r <- a_assignments n st ;; let '(vs, e, st) := r in Ok (Asgn vs e, st)
  else a_evaluation st.
End Ast.

Fixpoint a_expression (n : nat) (st : pstate) : res (expr * pstate) :=
  match n with
  | O => Err OutOfFuel
  | S n' => a_expression_ (a_expression n') n' st
  end.

(** A method: its selector, its parameters and its body, [None] for a primitive. *)
Record method := {
  m_selector : text; m_params : list text;
  m_body : option (list text * list expr * option expr)
}.
(** method (parser.py 361-367), _method_block (ast/parser.py 46-50) *)
Definition a_method (n : nat) (st : pstate) : res (method * pstate) :=
  let '(ts, f) := st in
  r <- pattern ts ;; let '(sel, ps, ts) := r in
  ts <- expect Equal ts ;;
  match kind ts with
  | Primitive => Ok ({| m_selector := sel; m_params := ps; m_body := None |}, (tl ts, f))
  | _ =>
      ts <- expect NewTerm ts ;;
      r <- block_locals ts ;; let '(ls, ts) := r in
      r <- a_block_body (a_expression n) n (ts, f) ;; let '(es, ret, (ts, f)) := r in
      ts <- expect EndTerm ts ;;
      Ok ({| m_selector := sel; m_params := ps; m_body := Some (ls, es, ret) |}, (ts, f))
  end.

(** * The bytecode parser: it emits code while it reads. *)
(** What the emit functions of bytecode_generator.py are asked to emit.  Which slot or
    field a name denotes is left to Scope, which bytecode is chosen to Comp, inlining to
    Inl; here a name stays a name and a message a message. *)
Inductive ev :=
| PushVar (n : text)
| PushConst (l : lit)            (* a number, string or symbol *)
| PushIndex (i : nat)            (* the Integer i, 390-391 and the size, 397-399 *)
| PushArray                      (* the global Array, 383 *)
| PushNil
| PushBlock (params locals : list text) (code : list ev)
| SendMsg (super : bool) (selector : text)
| IncTop | DecTop
| DupTop | PopTop
| PopVar (n : text)
| RetLocal | RetNonLocal | RetSelf.
Definition t_new : text := str "new:".
Definition t_at_put : text := str "at:put:".
Definition t_plus : text := str "+".
Definition t_minus : text := str "-".
Definition t_one : text := str "1".

(** _literal (339-350), _literal_number, _literal_symbol, _literal_string, _literal_array
    (352-400).  The literal index reserved for the size holds it once it is known. *)
Fixpoint b_literal (n : nat) (ts : tokens) : res (list ev * tokens) :=
  match n with
  | O => Err OutOfFuel
  | S n' =>
      match kind ts with
      | Pound =>
          if sym_eqb (kind (tl ts)) NewTerm then
            r <- b_literals n' 1 (tl (tl ts)) ;; let '(c, i, ts') := r in
            Ok (PushArray :: PushIndex (i - 1) :: SendMsg false t_new :: c, ts')
          else r <- literal_symbol (tl ts) ;; let '(l, ts) := r in Ok ([PushConst l], ts)
      | STString => Ok ([PushConst (LStr (ttext ts))], tl ts)
      | Minus => r <- literal_decimal true (tl ts) ;; let '(l, ts) := r in Ok ([PushConst l], ts)
      | _ => r <- literal_decimal false ts ;; let '(l, ts) := r in Ok ([PushConst l], ts)
      end
  end
(** the loop 389-395, with the closing parenthesis; also the final [i] *)
with b_literals (n : nat) (i : nat) (ts : tokens) : res (list ev * nat * tokens) :=
  match n with
  | O => Err OutOfFuel
  | S n' =>
      match kind ts with
      | EndTerm => Ok ([], i, tl ts)
      | _ => r <- b_literal n' ts ;; let '(c, ts) := r in
             r <- b_literals n' (S i) ts ;; let '(c', i', ts) := r in
             Ok (PushIndex i :: c ++ [SendMsg false t_at_put] ++ c', i', ts)
      end
  end.

(** remove_last_pop_for_block_local_return (bc/method_generation_context.py 209-238), as
    far as a POP that was just emitted goes: it is taken back.  (See Comp for the pops
    that the peephole optimiser has merged with a store.) *)
Definition remove_last_pop (c : list ev) : list ev :=
  match rev c with PopTop :: r => rev r | _ => c end.

Section Bc.
Variable E : pstate -> res (list ev * pstate).
Variable n : nat.

(** _block_body (60-88) with _result (90-116); [code] is what this context has emitted so
    far, [fin] is is_finished().  [blk]: is_block_method. *)
Definition b_result (blk : bool) (code : list ev) (st : pstate) : res (list ev * bool * pstate) :=
  let '(ts, f) := st in
  if negb blk && sym_eqb (kind ts) Identifier && text_eqb (ttext ts) t_self
     && (sym_eqb (kind (tl ts)) Period || sym_eqb (kind (tl ts)) EndTerm) then
    Ok (code ++ [RetSelf], true, (snd (accept Period (tl ts)), f))
  else
    r <- E st ;; let '(c, (ts, f)) := r in
    Ok (code ++ c ++ [if blk then RetNonLocal else RetLocal], true, (snd (accept Period ts), f)).

Fixpoint b_block_body (k : nat) (blk seen_period : bool) (code : list ev) (st : pstate)
  : res (list ev * bool * pstate) :=
  match k with
  | O => Err OutOfFuel
  | S k' =>
      let '(ts, f) := st in
      match kind ts with
      | Exit => b_result blk code (tl ts, f)
      | EndBlock =>
          let code := if seen_period then remove_last_pop code else code in
          let code := if blk && match code with [] => true | _ => false end
                      then [PushNil] else code in
          Ok (code ++ [RetLocal], true, st)
      | EndTerm => Ok (code ++ [RetSelf], true, st)
      | _ =>
          r <- E st ;; let '(c, (ts, f)) := r in
          match accept Period ts with
          | (true, ts) => b_block_body k' blk true (code ++ c ++ [PopTop]) (ts, f)
          | (false, ts) => Ok (code ++ c, false, (ts, f))
          end
      end
  end.

(** nested_block (402-417) *)
Definition b_nested_block (st : pstate) : res (list ev * pstate) :=
  let '(ts, f) := st in
  r <- nested_block_signature ts ;; let '(ps, ts) := r in
  r <- block_locals ts ;; let '(ls, ts) := r in
  r <- b_block_body n true false [] (ts, f) ;; let '(code, fin, (ts, f)) := r in
  let code := if fin then code
              else match code with [] => [PushNil] | _ => code end ++ [RetLocal] in
  ts <- expect EndBlock ts ;;
  Ok ([PushBlock ps ls code], (ts, f)).

(** _primary (158-176) *)
Definition b_primary (st : pstate) : res (list ev * pstate) :=
  let '(ts, f) := st in
  if is_ident (kind ts) then
    if text_eqb (ttext ts) t_super then Ok ([PushVar t_self], (tl ts, true))
    else Ok ([PushVar (ttext ts)], (tl ts, f))
  else
    match kind ts with
    | NewTerm =>
        r <- E (tl ts, f) ;; let '(c, (ts, f)) := r in
        ts <- expect EndTerm ts ;; Ok (c, (ts, f))
    | NewBlock => b_nested_block st
    | _ => r <- b_literal n ts ;; let '(c, ts) := r in Ok (c, (ts, f))
    end.

(** while _sym_is_identifier: _unary_message (180-182, 255-256, 205-214) *)
Fixpoint b_unary_loop (ts : tokens) (f : bool) : list ev * pstate :=
  match ts with
  | (k, t) :: ts' =>
      if is_ident k then let '(c, st) := b_unary_loop ts' false in (SendMsg f t :: c, st)
      else ([], (ts, f))
  | [] => ([], (ts, f))
  end.

(** _binary_operand (252-256) *)
Definition b_binary_operand (st : pstate) : res (list ev * pstate) :=
  r <- b_primary st ;; let '(c, (ts, f)) := r in
  let '(c', st) := b_unary_loop ts f in Ok (c ++ c', st).

(** _binary_message (228-250), _try_inc_or_dec_bytecodes (216-226) *)
Definition b_binary_message (st : pstate) : res (list ev * pstate) :=
  let '(ts, is_super) := st in
  r <- binary_selector ts ;; let '(s, ts) := r in
  if (text_eqb s t_plus || text_eqb s t_minus) && negb is_super
     && sym_eqb (kind ts) Integer && text_eqb (ttext ts) t_one then
    Ok ([if text_eqb s t_plus then IncTop else DecTop], (tl ts, false))
  else
    r <- b_binary_operand (ts, false) ;; let '(c, st) := r in
    Ok (c ++ [SendMsg is_super s], st).

Fixpoint b_binary_loop (k : nat) (st : pstate) : res (list ev * pstate) :=
  match k with
  | O => Err OutOfFuel
  | S k' =>
      if is_op (kind (fst st)) then
        r <- b_binary_message st ;; let '(c, st) := r in
        r <- b_binary_loop k' st ;; let '(c', st) := r in Ok (c ++ c', st)
      else Ok ([], st)
  end.

(** _formula (325-337) *)
Definition b_formula (st : pstate) : res (list ev * pstate) :=
  r <- b_binary_operand st ;; let '(c, st) := r in
  r <- (if is_op (kind (fst st)) then b_binary_message st else Ok ([], st)) ;;
  let '(c1, st) := r in
  r <- b_binary_loop n st ;; let '(c2, (ts, _)) := r in
  Ok (c ++ c1 ++ c2, (ts, false)).

(** _keyword_message (258-323): the first part, then the loop 265-267 *)
Fixpoint b_keyword_loop (k : nat) (st : pstate) : res (text * list ev * pstate) :=
  match k with
  | O => Err OutOfFuel
  | S k' =>
      let '(ts, f) := st in
      match kind ts with
      | Keyword =>
          r <- keyword ts ;; let '(s, ts) := r in
          r <- b_formula (ts, f) ;; let '(c, st) := r in
          r <- b_keyword_loop k' st ;; let '(sel, c', st) := r in
          Ok (s ++ sel, c ++ c', st)
      | _ => Ok ([], [], st)
      end
  end.
Definition b_keyword_message (st : pstate) : res (list ev * pstate) :=
  let '(ts, is_super) := st in
  r <- keyword ts ;; let '(s, ts) := r in
  r <- b_formula (ts, false) ;; let '(c, st) := r in
  r <- b_keyword_loop n st ;; let '(sel, c', st) := r in
  Ok (c ++ c' ++ [SendMsg is_super (s ++ sel)], st).

(** _messages (178-203) *)
Definition b_binary_then_keyword (st : pstate) : res (list ev * pstate) :=
  r <- b_binary_loop n st ;; let '(c, st) := r in
  match kind (fst st) with
  | Keyword => r <- b_keyword_message st ;; let '(c', st) := r in Ok (c ++ c', st)
  | _ => Ok (c, st)
  end.
Definition b_messages (st : pstate) : res (list ev * pstate) :=
  let '(ts, f) := st in
  if is_ident (kind ts) then
    let '(c, st) := b_unary_loop ts f in
    r <- b_binary_then_keyword st ;; let '(c', st) := r in Ok (c ++ c', st)
  else if is_op (kind ts) then b_binary_then_keyword st
  else b_keyword_message st.

(** _evaluation (145-156) *)
Definition b_evaluation (st : pstate) : res (list ev * pstate) :=
  r <- b_primary st ;; let '(c, st) := r in
  r <- (if starts_message (kind (fst st)) then b_messages st else Ok ([], st)) ;;
  let '(c', (ts, _)) := r in Ok (c ++ c', (ts, false)).

(** _assignments, _assignment (130-143) *)
Fixpoint b_assignments (k : nat) (ts : tokens) : res (list text * tokens) :=
  match k with
  | O => Err OutOfFuel
  | S k' =>
      if is_ident (kind ts) then
        ts' <- expect Assign (tl ts) ;;
        r <- (if sym_eqb (kind (tl ts')) Assign then b_assignments k' ts' else Ok ([], ts')) ;;
        let '(vs, ts') := r in Ok (ttext ts :: vs, ts')
      else Ok ([], ts)
  end.
(** _assignation (118-128) *)
Definition b_assignation (st : pstate) : res (list ev * pstate) :=
  let '(ts, f) := st in
  r <- b_assignments n ts ;; let '(vs, ts) := r in
  r <- b_evaluation (ts, f) ;; let '(c, st) := r in
  Ok (c ++ repeat DupTop (length vs) ++ map PopVar vs, st).

Definition b_expression_ (st : pstate) : res (list ev * pstate) :=
  if sym_eqb (kind (tl (fst st))) Assign then b_assignation st else b_evaluation st.
End Bc.

Fixpoint b_expression (n : nat) (st : pstate) : res (list ev * pstate) :=
  match n with
  | O => Err OutOfFuel
  | S n' => b_expression_ (b_expression n') n' st
  end.

(** A method as the bytecode compiler sees it, [None] for a primitive. *)
Record bc_method := {
  bm_selector : text; bm_params : list text; bm_body : option (list text * list ev)
}.
(** method (parser.py 361-367), _method_block (bc/parser.py 45-58) *)
Definition b_method (n : nat) (st : pstate) : res (bc_method * pstate) :=
  let '(ts, f) := st in
  r <- pattern ts ;; let '(sel, ps, ts) := r in
  ts <- expect Equal ts ;;
  match kind ts with
  | Primitive => Ok ({| bm_selector := sel; bm_params := ps; bm_body := None |}, (tl ts, f))
  | _ =>
      ts <- expect NewTerm ts ;;
      r <- block_locals ts ;; let '(ls, ts) := r in
      r <- b_block_body (b_expression n) n false false [] (ts, f) ;;
      let '(code, fin, (ts, f)) := r in
      let code := if fin then code else code ++ [RetSelf] in
      ts <- expect EndTerm ts ;;
      Ok ({| bm_selector := sel; bm_params := ps; bm_body := Some (ls, code) |}, (ts, f))
  end.

(** * Class definitions (parser.py 80-137, 173-185), for either parser of methods *)
(** The superclass name is [None] where the source has none.  (Loading the superclass is
    left out.) *)
Record classdef (M : Type) := {
  c_name : text; c_super : option text;
  c_fields : list text; c_methods : list M;
  c_class_fields : list text; c_class_methods : list M
}.
Section Classes.
Context {M : Type}.
Variable meth : pstate -> res (M * pstate).
Definition starts_pattern (k : sym) : bool := is_ident k || sym_eqb k Keyword || is_op k.
(** the loops 90-100, 106-116 *)
Fixpoint methods (k : nat) (st : pstate) : res (list M * pstate) :=
  match k with
  | O => Err OutOfFuel
  | S k' =>
      if starts_pattern (kind (fst st)) then
        r <- meth st ;; let '(m, st) := r in
        r <- methods k' st ;; let '(ms, st) := r in Ok (m :: ms, st)
      else Ok ([], st)
  end.
Definition class_definition (k : nat) (st : pstate) : res (classdef M * pstate) :=
  let '(ts, f) := st in
  let name := ttext ts in
  ts <- expect Identifier ts ;;
  ts <- expect Equal ts ;;
  let '(super, ts) := match kind ts with
                      | Identifier => (Some (ttext ts), tl ts)
                      | _ => (None, ts)
                      end in
  ts <- expect NewTerm ts ;;
  r <- block_locals ts ;; let '(fs, ts) := r in
  r <- methods k (ts, f) ;; let '(ms, (ts, f)) := r in
  r <- match kind ts with
       | Separator =>
           r <- block_locals (tl ts) ;; let '(cfs, ts) := r in
           r <- methods k (ts, f) ;; let '(cms, st) := r in Ok (cfs, cms, st)
       | _ => Ok ([], [], (ts, f))
       end ;;
  let '(cfs, cms, (ts, f)) := r in
  ts <- expect EndTerm ts ;;
  Ok ({| c_name := name; c_super := super; c_fields := fs; c_methods := ms;
         c_class_fields := cfs; c_class_methods := cms |}, (ts, f)).
End Classes.

(** * Entry points *)
(** Every round of a loop and every nested expression consumes a token, so that the number
    of tokens bounds the recursion.  A new parser starts with _super_send = False
    (parser.py 69). *)
Definition ast_expression (ts : tokens) : res (expr * tokens) :=
  r <- a_expression (S (length ts)) (ts, false) ;; let '(e, (ts, _)) := r in Ok (e, ts).
Definition bc_expression (ts : tokens) : res (list ev * tokens) :=
  r <- b_expression (S (length ts)) (ts, false) ;; let '(c, (ts, _)) := r in Ok (c, ts).
Definition ast_method (ts : tokens) : res (method * tokens) :=
  r <- a_method (S (length ts)) (ts, false) ;; let '(m, (ts, _)) := r in Ok (m, ts).
Definition bc_method_ (ts : tokens) : res (bc_method * tokens) :=
  r <- b_method (S (length ts)) (ts, false) ;; let '(m, (ts, _)) := r in Ok (m, ts).
Definition ast_class (ts : tokens) : res (classdef method * tokens) :=
  r <- class_definition (a_method (S (length ts))) (S (length ts)) (ts, false) ;;
  let '(c, (ts, _)) := r in Ok (c, ts).
Definition bc_class (ts : tokens) : res (classdef bc_method * tokens) :=
  r <- class_definition (b_method (S (length ts))) (S (length ts)) (ts, false) ;;
  let '(c, (ts, _)) := r in Ok (c, ts).
