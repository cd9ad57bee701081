(** The compiler of the AST interpreter (compiler/ast/parser.py,
    compiler/ast/method_generation_context.py), the adaptation of nodes when blocks are
    inlined (rtruffle/abstract_node.py, interpreter/ast/nodes), and what executing a node
    does.  The part of a generation context that is about names is shared with the bytecode
    compiler (compiler/method_generation_context.py, here [scope] of BcModel). *)
From Coq Require Import ZArith Bool String Ascii List Lia.
From Verif Require Import Base LexModel ParseModel BcModel BcInterp.
Import ListNotations.
Open Scope nat_scope.
Open Scope list_scope.

(** * Nodes (interpreter/ast/nodes) *)
(** Methods that are not executed as nodes (vmobjects/method_trivial.py 23-216): a literal,
    a literal array, a global known when the method was compiled ([_assoc] set), a global by
    name with the context level of self, a field with the context level of self, and setting
    a field to an argument. *)
Inductive atriv :=
| ALit (v : value)
| AArr (ls : list slit)
| AGlob (n : text)
| AUnk (n : text) (k : nat)
| AFld (i k : nat)
| AFldW (i a : nat).

(** literal_node.py, block_node.py, variable_node.py, field_node.py, global_read_node.py,
    message/*.py, return_non_local_node.py, sequence_node.py, specialized/literal_*.py,
    specialized/int_inc_node.py.
    A variable is a local, identified by its declaration, or an argument; [k] is a context
    level.  [NSelf 0] is LocalFrameVarReadNode and [NSelf (S k)] NonLocalVariableReadNode of
    the receiver slot.  A block has [with_ctx] (BlockNodeWithContext), the number of the
    block literal, and its method: the body, the locals of its lexical scope and the number
    of arguments, or a trivial method.
    Simplifications: the _self_exp of a field node is given by its context level (it is a
    read of self, method_generation_context.py 101-102); nodes that rewrite themselves when
    they are executed first are executed as what they are rewritten to (that a slot of its
    own belongs to each variable is C40, the rewriting of loops is C51); the wrapper
    CatchNonLocalReturnNode is a field of the method. *)
Inductive node :=
| NLit (v : value)
| NArr (ls : list slit)
| NBlk (with_ctx : bool) (label : nat) (body : node) (locals : list local) (nargs : nat)
| NBlkT (with_ctx : bool) (label : nat) (t : atriv) (nargs : nat)
| NRead (v : vref) (k : nat)
| NSelf (k : nat)
| NWrite (v : vref) (k : nat) (e : node)
| NFldR (k i : nat)
| NFldW (k i : nat) (e : node)
| NFldI (k i : nat)
| NGlob (n : text)
| NUnk (n : text) (k : nat)
| NSend (sel : text) (r : node) (args : list node)
| NSuper (sel : text) (r : node) (args : list node)
| NInc (r : node)
| NRetNL (k : nat) (e : node)
| NRetLoc (e : node)
| NSeq (l : list node)
| NIf (expected : bool) (c t : node)
| NIfNil (c t : node)
| NIfNotNil (c t : node)
| NIfElse (expected : bool) (c t f : node)
| NIfNN (c nl nn : node)
| NWhile (expected : bool) (c t : node)
| NAnd (c t : node)
| NOr (c t : node).

(** AstMethod (vmobjects/method_ast.py 75-116), with or without CatchNonLocalReturnNode
    around the body, or a trivial method. *)
Inductive amethod :=
| AMeth (catch : bool) (body : node)
| ATriv (t : atriv) (nargs : nat).

(** create_trivial_method: literal_node.py 14-17, global_read_node.py 52-55 and 71-72,
    field_node.py 26-31 and 48-61, sequence_node.py 24-34; every other node has none
    (expression_node.py 8-9, block_node.py 16-17). *)
Definition triv_write (nd : node) : option atriv :=
  match nd with
  | NFldW 0 i (NRead (VArg a) _) => Some (AFldW i a)
  | _ => None
  end.
Definition triv_of (nd : node) : option atriv :=
  match nd with
  | NLit v => Some (ALit v)
  | NArr ls => Some (AArr ls)
  | NGlob n => Some (AGlob n)
  | NUnk n k => Some (AUnk n k)
  | NFldR k i => Some (AFld i k)
  | NFldW _ _ _ => triv_write nd
  | NSeq [x; NSelf 0] => triv_write x
  | _ => None
  end.

(** _create_sequence_node (parser.py 74-82) *)
Definition seq_node (l : list node) : node :=
  match l with
  | [] => NLit VNil
  | [x] => x
  | _ => NSeq l
  end.
(** assemble of a block and _primary (method_generation_context.py 22-47, parser.py 156-168) *)
Definition block_node (c : bool) (label : nat) (body : node) (locals : list local) (na : nat) : node :=
  match triv_of body with
  | Some t => NBlkT c label t na
  | None => NBlk c label body locals na
  end.
(** assemble of a method *)
Definition assemble_ast (catch : bool) (body : node) (na : nat) : amethod :=
  if catch then AMeth true body
  else match triv_of body with
       | Some t => ATriv t na
       | None => AMeth false body
       end.

(** * Adaptation *)
(** get_inlined_local (compiler/method_generation_context.py 100-109): a local with the same
    declaration is there *)
Definition has_source (d : nat) (ls : list local) : bool := existsb (fun l => snd l =? d) ls.
(** handle_inlining and handle_outer_inlined of UninitializedReadNode and
    UninitializedWriteNode (variable_node.py 30-57, 83-111); [r] = 0 for handle_inlining.
    The new level, and the local to be marked as accessed out of its context. *)
Definition adapt_var (r : nat) (cur : list local) (v : vref) (k : nat) : res (nat * list nat) :=
  if r <? k then Ok (k - 1, [])
  else if k =? r then
    match v with
    | VLoc d => if has_source d cur then Ok (k, match r with O => [] | _ => [d] end)
                else Err PyException
    | VArg _ => Err AssertionError
    end
  else Ok (k, []).
(** handle_inlining and handle_outer_inlined of NonLocalVariableReadNode (variable_node.py
    130-148); LocalFrameVarReadNode has none. *)
Definition adapt_self (r k : nat) : res nat :=
  match r, k with
  | _, O => Ok 0
  | O, S k => Ok k
  | S _, S k' => if (r <? k) && (0 <? k') then Ok k' else Err AssertionError
  end.
(** handle_inlining of _UninitializedGlobalReadNode (global_read_node.py 57-58); it has no
    handle_outer_inlined.  (A level 0 would become -1; there is no such node in a block.) *)
Definition adapt_unk (r k : nat) : nat := match r with O => k - 1 | S _ => k end.

(** adapt_after_inlining ([r] = 0) and adapt_after_outer_inlined (rtruffle/abstract_node.py
    52-89): children first, then the node.  [cur] are the locals of the context that takes
    the inlined block; the result lists the locals marked as accessed out of their context.
    UninitializedWriteNode does not adopt its value (variable_node.py 67-71): replacing a
    read of self below it fails (rtruffle/node.py 43-48).  BlockNodeWithContext adapts its
    method (block_node.py 30-34, method_ast.py 173-178), a trivial method cannot be adapted;
    BlockNode is left alone.
    ReturnNonLocalNode becomes ReturnLocalNode at level 0 (return_non_local_node.py 51-65). *)
Fixpoint adapt_node (r : nat) (cur : list local) (nd : node) {struct nd} : res (node * list nat) :=
  let adapts := fix go (l : list node) : res (list node * list nat) :=
    match l with
    | [] => Ok ([], [])
    | x :: l => p <- adapt_node r cur x ;; q <- go l ;; Ok (fst p :: fst q, snd p ++ snd q)
    end in
  match nd with
  | NLit _ | NArr _ | NGlob _ => Ok (nd, [])
  | NBlk c label body locals na =>
      if c then p <- adapt_node (S r) cur body ;; Ok (NBlk c label (fst p) locals na, snd p)
      else Ok (nd, [])
  | NBlkT c _ _ _ => if c then Err AttributeError else Ok (nd, [])
  | NRead v k => p <- adapt_var r cur v k ;; Ok (NRead v (fst p), snd p)
  | NSelf k => k <- adapt_self r k ;; Ok (NSelf k, [])
  | NWrite v k e =>
      match r, e with
      | O, NSelf 1 => Err AttributeError
      | _, _ => q <- adapt_node r cur e ;; p <- adapt_var r cur v k ;;
                Ok (NWrite v (fst p) (fst q), snd q ++ snd p)
      end
  | NFldR k i => k <- adapt_self r k ;; Ok (NFldR k i, [])
  | NFldW k i e => k <- adapt_self r k ;; q <- adapt_node r cur e ;; Ok (NFldW k i (fst q), snd q)
  | NFldI k i => k <- adapt_self r k ;; Ok (NFldI k i, [])
  | NUnk n k => Ok (NUnk n (adapt_unk r k), [])
  | NSend sel x l => p <- adapt_node r cur x ;; q <- adapts l ;; Ok (NSend sel (fst p) (fst q), snd p ++ snd q)
  | NSuper sel x l => p <- adapt_node r cur x ;; q <- adapts l ;; Ok (NSuper sel (fst p) (fst q), snd p ++ snd q)
  | NInc x => p <- adapt_node r cur x ;; Ok (NInc (fst p), snd p)
  | NRetNL k e =>
      p <- adapt_node r cur e ;;
      match k with
      | O => Err AssertionError
      | S O => Ok (NRetLoc (fst p), snd p)
      | S k => Ok (NRetNL k (fst p), snd p)
      end
  | NRetLoc e => p <- adapt_node r cur e ;; Ok (NRetLoc (fst p), snd p)
  | NSeq l => q <- adapts l ;; Ok (NSeq (fst q), snd q)
  | NIf b c t => p <- adapt_node r cur c ;; q <- adapt_node r cur t ;; Ok (NIf b (fst p) (fst q), snd p ++ snd q)
  | NIfNil c t => p <- adapt_node r cur c ;; q <- adapt_node r cur t ;; Ok (NIfNil (fst p) (fst q), snd p ++ snd q)
  | NIfNotNil c t => p <- adapt_node r cur c ;; q <- adapt_node r cur t ;; Ok (NIfNotNil (fst p) (fst q), snd p ++ snd q)
  | NIfElse b c t f =>
      p <- adapt_node r cur c ;; q <- adapt_node r cur t ;; o <- adapt_node r cur f ;;
      Ok (NIfElse b (fst p) (fst q) (fst o), snd p ++ snd q ++ snd o)
  | NIfNN c t f =>
      p <- adapt_node r cur c ;; q <- adapt_node r cur t ;; o <- adapt_node r cur f ;;
      Ok (NIfNN (fst p) (fst q) (fst o), snd p ++ snd q ++ snd o)
  | NWhile b c t => p <- adapt_node r cur c ;; q <- adapt_node r cur t ;; Ok (NWhile b (fst p) (fst q), snd p ++ snd q)
  | NAnd c t => p <- adapt_node r cur c ;; q <- adapt_node r cur t ;; Ok (NAnd (fst p) (fst q), snd p ++ snd q)
  | NOr c t => p <- adapt_node r cur c ;; q <- adapt_node r cur t ;; Ok (NOr (fst p) (fst q), snd p ++ snd q)
  end.

(** * The compiler *)
Definition t_super : text := str "super".
Definition t_plus : text := str "+".
Definition t_minus : text := str "-".

Section Gen.
Variable ce : cenv.
Notation acc := (node * list scope)%type.

(** get_self_read (method_generation_context.py 101-102) with Argument.get_read_node
    (variable.py 128-136): the context level of self *)
Definition self_level (scs : list scope) : res (nat * list scope) :=
  match find_var t_self scs with
  | (Some (k, f), scs) => Ok (k, mark_accessed k (ref_of f) scs)
  | (None, _) => Err AttributeError
  end.
(** get_context_level("self") (70-74) *)
Definition level_of_self (scs : list scope) : res nat :=
  match fst (find_var t_self scs) with Some (k, _) => Ok k | None => Err AssertionError end.
(** create_global_node (global_read_node.py 11-27) *)
Definition global_node (n : text) (scs : list scope) : res acc :=
  if text_eqb n t_true then Ok (NLit VTrue, scs)
  else if text_eqb n t_false then Ok (NLit VFalse, scs)
  else if text_eqb n t_nil then Ok (NLit VNil, scs)
  else if ce_known ce n then Ok (NGlob n, scs)
  else k <- level_of_self scs ;; Ok (NUnk n k, mark_self scs).
(** _variable_read (parser.py 515-529), get_variable (method_generation_context.py 76-88),
    _Variable.get_read_node and Argument.get_read_node (variable.py 42-44, 128-136) *)
Definition read_node (n : text) (scs : list scope) : res acc :=
  match find_var n scs with
  | (Some (k, f), scs) =>
      let scs := mark_accessed k (ref_of f) scs in
      match f with
      | FArg _ => if text_eqb n t_self || text_eqb n t_block_self then Ok (NSelf k, scs)
                  else Ok (NRead (ref_of f) k, scs)
      | FLoc _ _ => Ok (NRead (ref_of f) k, scs)
      end
  | (None, scs) =>
      match find_text n (ce_fields ce) with
      | Some i => p <- self_level scs ;; Ok (NFldR (fst p) i, snd p)
      | None => global_node n scs
      end
  end.
(** does_access_field (int_inc_node.py 16-20) *)
Definition accesses_field (i : nat) (nd : node) : bool :=
  match nd with NInc (NFldR _ j) => i =? j | _ => false end.
(** _variable_write (parser.py 531-556), create_write_node (field_node.py 77-80) *)
Definition write_node (n : text) (p : acc) : res acc :=
  let '(e, scs) := p in
  if text_eqb n t_self || text_eqb n t_super then Err PyException
  else match find_var n scs with
       | (Some (k, f), scs) => Ok (NWrite (ref_of f) k e, mark_accessed k (ref_of f) scs)
       | (None, scs) =>
           match find_text n (ce_fields ce) with
           | Some i =>
               p <- self_level scs ;;
               Ok (if accesses_field i e then NFldI (fst p) i else NFldW (fst p) i e, snd p)
           | None => Err PyException
           end
       end.
(** _assignments (parser.py 101-121): the last variable first *)
Fixpoint write_nodes (vs : list text) (p : acc) : res acc :=
  match vs with
  | [] => Ok p
  | v :: vs => p <- write_nodes vs p ;; write_node v p
  end.

Definition is_block_node (nd : node) : bool :=
  match nd with NBlk _ _ _ _ _ | NBlkT _ _ _ _ => true | _ => false end.
(** AstMethod.inline (method_ast.py 168-171) with merge_into_scope, and inline of the trivial
    methods (method_trivial.py 73-76, 128-131, 173-176; FieldWrite has none).  A GlobalRead
    of a known global has neither name nor universe (global_read_node.py 71-72). *)
Definition inline_block (nd : node) (scs : list scope) : res acc :=
  match nd with
  | NBlk _ _ body locals na =>
      if na =? 1 then
        match scs with
        | sc :: outer =>
            ls <- inline_locals locals (sc_locals sc) ;;
            p <- adapt_node 0 ls body ;;
            Ok (fst p, mark_locals (snd p) (set_locals ls sc :: outer))
        | [] => Err AttributeError
        end
      else Err AssertionError
  | NBlkT _ _ t _ =>
      match t with
      | ALit v => Ok (NLit v, scs)
      | AArr ls => Ok (NArr ls, scs)
      | AGlob _ => Err AttributeError
      | AUnk n _ => global_node n scs
      | AFld i _ => p <- self_level scs ;; Ok (NFldR (fst p) i, snd p)
      | AFldW _ _ => Err AttributeError
      end
  | _ => Err AttributeError
  end.
(** _try_inlining_if, .._if_nil, .._if_not_nil, .._if_else, .._if_nil_not_nil, .._while,
    .._and, .._or
    (ast/parser.py 245-334); which one belongs to which selector: _binary_message (211-220)
    and _keyword_message (352-426).  [None]: not inlined. *)
Definition then_node (k : cond) (r t : node) : node :=
  match k with
  | OnFalse => NIf true r t
  | OnTrue => NIf false r t
  | OnNotNil => NIfNil r t
  | OnNil => NIfNotNil r t
  end.
Definition else_node (k : cond) (r a b : node) : node :=
  match k with
  | OnFalse => NIfElse true r a b
  | OnTrue => NIfElse false r a b
  | OnNotNil => NIfNN r a b
  | OnNil => NIfNN r b a
  end.
Definition inline_special (k : special) (r : node) (args : list node) (scs : list scope)
  : res (option acc) :=
  match k, args with
  | KThen c, [a] =>
      if is_block_node a then p <- inline_block a scs ;; Ok (Some (then_node c r (fst p), snd p))
      else Ok None
  | KElse c, [a; b] =>
      if is_block_node a && is_block_node b then
        p <- inline_block a scs ;; q <- inline_block b (snd p) ;;
        Ok (Some (else_node c r (fst p) (fst q), snd q))
      else Ok None
  | KWhile b, [a] =>
      if is_block_node r && is_block_node a then
        p <- inline_block r scs ;; q <- inline_block a (snd p) ;;
        Ok (Some (NWhile b (fst p) (fst q), snd q))
      else Ok None
  | KAndOr b, [a] =>
      if is_block_node a then
        p <- inline_block a scs ;; Ok (Some (if b then NOr r (fst p) else NAnd r (fst p), snd p))
      else Ok None
  | _, _ => Ok None
  end.
(** The argument of [+] is a literal: it is executed, without a frame, to see whether it is
    the Integer 1 (parser.py 226-231); a block with context needs a frame (block_node.py 27-28). *)
Definition plus_node (r : node) (args : list node) : res node :=
  match args with
  | [NLit (VInt z)] => if Z.eqb z 1 then Ok (NInc r) else Ok (NSend t_plus r args)
  | [NBlk true _ _ _ _] | [NBlkT true _ _ _] => Err TypeError
  | _ => Ok (NSend t_plus r args)
  end.
(** The end of _unary_message, _binary_message and _keyword_message (188-235, 336-452) *)
Definition message_node (sup : bool) (sel : text) (r : node) (args : list node) (scs : list scope)
  : res acc :=
  if sup then Ok (NSuper sel r args, scs)
  else
    o <- match special_of sel with Some k => inline_special k r args scs | None => Ok None end ;;
    match o with
    | Some p => Ok p
    | None => if text_eqb sel t_plus then nd <- plus_node r args ;; Ok (nd, scs)
              else Ok (NSend sel r args, scs)
    end.

(** _expression, _assignation, _evaluation, _primary, the messages, nested_block, _block_body
    and _result (52-235, 336-513), over the tree of the source.  [e - 1] is an ordinary
    message. *)
Fixpoint agen (e : src) (scs : list scope) {struct e} : res acc :=
  let agens := fix go (l : list src) (scs : list scope) : res (list node * list scope) :=
    match l with
    | [] => Ok ([], scs)
    | a :: l => p <- agen a scs ;; q <- go l (snd p) ;; Ok (fst p :: fst q, snd q)
    end in
  match e with
  | SVar n => read_node n scs
  | SLit (SL l) => match lit_value l with Some v => Ok (NLit v, scs) | None => Err PyException end
  | SLit (SA ls) => Ok (NArr ls, scs)
  | SSend sup r sel args =>
      p <- agen r scs ;; q <- agens args (snd p) ;; message_node sup sel (fst p) (fst q) (snd q)
  | SInc e => p <- agen e scs ;; Ok (NInc (fst p), snd p)
  | SDec e => p <- agen e scs ;; Ok (NSend t_minus (fst p) [NLit (VInt 1)], snd p)
  | SAsgn vs e => p <- agen e scs ;; write_nodes vs p
  | SBlk label ps ls ss ret _ =>
      sc <- new_scope (t_block_self :: ps) ls ;;
      q <- agens ss (sc :: scs) ;;
      p <- match ret with
           | None => Ok q
           | Some e =>
               p <- agen e (snd q) ;;
               scs' <- make_catch (snd p) ;;
               Ok (fst q ++ [NRetNL (max_ctx (snd p)) (fst p)], scs')
           end ;;
      match snd p with
      | sc :: scs =>
          Ok (block_node (requires_context sc) label (seq_node (fst p)) (sc_locals sc)
                (length (sc_args sc)), scs)
      | [] => Err AttributeError
      end
  end.
Fixpoint agens (l : list src) (scs : list scope) : res (list node * list scope) :=
  match l with
  | [] => Ok ([], scs)
  | a :: l => p <- agen a scs ;; q <- agens l (snd p) ;; Ok (fst p :: fst q, snd q)
  end.
(** A method: _method_block, _block_body, _result (46-96) and assemble; without [^] it reads
    self in the end. *)
Definition compile_ast (ps : list text) (ls : list (text * nat)) (ss : list src)
  (ret : option src) : res amethod :=
  sc <- new_scope (t_self :: ps) ls ;;
  q <- agens ss [sc] ;;
  p <- agen (match ret with Some e => e | None => SVar t_self end) (snd q) ;;
  match snd p with
  | sc :: _ => Ok (assemble_ast (sc_catch sc) (seq_node (fst q ++ [fst p])) (length (sc_args sc)))
  | [] => Err AttributeError
  end.
End Gen.

(** * Execution *)
(** What nodes ask of the rest of the VM: as the bytecodes do, and an unknown global with the
    context level of self (global_read_node.py 38-45), whether super has a method
    (super_node.py 19-26), the array made when a literal array was parsed (parser.py
    500-507), and the Python exceptions the nodes themselves raise. *)
Record amachine (S X : Type) : Type := AMachine {
  a_mach : machine S X;
  a_glob : nat -> text -> S -> out S X value;
  a_super : text -> S -> bool;
  a_arr : list slit -> S -> out S X value;
  a_exn : exn -> X }.
Arguments a_mach {S X}. Arguments a_glob {S X}. Arguments a_super {S X}. Arguments a_arr {S X}.
Arguments a_exn {S X}.
(** Exceptions on the way: one of the VM, or the ReturnException of a ReturnLocalNode, which
    is meant for the activation it is raised in (return_non_local_node.py 24-29). *)
Inductive astop (X : Type) := AX (x : X) | ALoc (v : value).
Arguments AX {X}. Arguments ALoc {X}.
Definition lift {S X A} (o : out S X A) : out S (astop X) A :=
  match o with
  | Done a s => Done a s
  | Retn v s => Retn v s
  | Abrupt x s => Abrupt (AX x) s
  | Hang => Hang
  | Stuck => Stuck
  end.
(** `result is trueObject`, `is falseObject` *)
Definition is_bool (b : bool) (v : value) : bool :=
  match v, b with VTrue, true => true | VFalse, false => true | _, _ => false end.
Definition is_nil (v : value) : bool := match v with VNil => true | _ => false end.

Section Exec.
Context {S X : Type}.
Variable μ : amachine S X.
Notation aout := (out S (astop X)).
Definition throw {A} (e : exn) (s : S) : aout A := Abrupt (AX (a_exn μ e)) s.

(** WhileInlinedNode.execute (literal_while.py 37-50), at most [n] rounds. *)
Fixpoint while_node (b : bool) (n : nat) (c t : nat -> S -> aout value) (s : S) : aout value :=
  match n with
  | O => Hang
  | Datatypes.S n' =>
      bind (c n s) (fun v s =>
      if is_bool b v then bind (t n s) (fun _ s => while_node b n' c t s)
      else if is_bool (negb b) v then Done VNil s
      else throw NotImplementedErr s)
  end.

(** execute of the nodes *)
Fixpoint exec (nd : node) (n : nat) (s : S) {struct nd} : aout value :=
  let m := a_mach μ in
  let execs := fix go (l : list node) (vs : list value) (s : S) : aout (list value) :=
    match l with
    | [] => Done vs s
    | x :: l => bind (exec x n s) (fun v s => go l (vs ++ [v]) s)
    end in
  match nd with
  | NLit v => Done v s
  | NArr ls => lift (a_arr μ ls s)
  | NBlk _ label _ _ _ | NBlkT _ label _ _ => lift (m_blk m label s)
  | NRead v k => lift (m_rd m k v s)
  | NSelf k => lift (m_rd m k (VArg 0) s)
  | NWrite v k e => bind (exec e n s) (fun x s => bind (lift (m_wr m k v x s)) (fun _ s => Done x s))
  | NFldR k i => lift (m_getf m k i s)
  | NFldW k i e => bind (exec e n s) (fun x s => bind (lift (m_setf m k i x s)) (fun _ s => Done x s))
  | NFldI k i => lift (m_incf m k i s)
  | NGlob g => lift (m_glob m g s)
  | NUnk g k => lift (a_glob μ k g s)
  | NSend sel r l =>
      bind (exec r n s) (fun v s => bind (execs l [v] s) (fun vs s => lift (m_send m sel vs s)))
  | NSuper sel r l =>
      if a_super μ sel s then
        bind (exec r n s) (fun v s => bind (execs l [v] s) (fun vs s => lift (m_super m sel vs s)))
      else throw PyException s
  | NInc r => bind (exec r n s) (fun v s => lift (m_inc m v s))
  | NRetNL k e => bind (exec e n s) (fun v s => lift (m_nlr m k v s))
  | NRetLoc e => bind (exec e n s) (fun v s => Abrupt (ALoc v) s)
  | NSeq l =>
      (fix go (l : list node) (s : S) : aout value :=
         match l with
         | [] => Stuck
         | x :: l => match l with
                     | [] => exec x n s
                     | _ => bind (exec x n s) (fun _ s => go l s)
                     end
         end) l s
  | NIf b c t =>
      bind (exec c n s) (fun v s =>
      if is_bool b v then exec t n s
      else if is_bool (negb b) v then Done VNil s
      else throw NotImplementedErr s)
  | NIfNil c t => bind (exec c n s) (fun v s => if is_nil v then exec t n s else Done v s)
  | NIfNotNil c t => bind (exec c n s) (fun v s => if is_nil v then Done v s else exec t n s)
  | NIfElse b c t f =>
      bind (exec c n s) (fun v s =>
      if is_bool b v then exec t n s
      else if is_bool (negb b) v then exec f n s
      else throw NotImplementedErr s)
  | NIfNN c t f => bind (exec c n s) (fun v s => if is_nil v then exec t n s else exec f n s)
  | NWhile b c t => while_node b n (exec c) (exec t) s
  | NAnd c t =>
      bind (exec c n s) (fun v s =>
      if is_bool true v then exec t n s
      else if is_bool false v then Done VFalse s
      else throw AssertionError s)
  | NOr c t =>
      bind (exec c n s) (fun v s =>
      if is_bool true v then Done VTrue s
      else if is_bool false v then exec t n s
      else throw AssertionError s)
  end.

(** invoke_1, invoke_2, invoke_3 of the trivial methods, seen from the activation there would
    be (vmobjects/method_trivial.py); for more arguments than three there is no invoke_args. *)
Definition exec_triv (t : atriv) (na : nat) (s : S) : out S X value :=
  let m := a_mach μ in
  if na <=? 3 then
    match t with
    | ALit v => Done v s
    | AArr ls => a_arr μ ls s
    | AGlob g => m_glob m g s
    | AUnk g k => a_glob μ k g s
    | AFld i k => m_getf m k i s
    | AFldW i a =>
        bind (m_rd m 0 (VArg a) s) (fun v s =>
        bind (m_setf m 0 i v s) (fun _ s => m_rd m 0 (VArg 0) s))
    end
  else Abrupt (a_exn μ AttributeError) s.
(** The answer of an activation.  A ReturnException for it that is not caught in it is on its
    way out of the VM ([Stuck]).  (method_ast.py 122-166, return_non_local_node.py 76-87) *)
Definition answer (catch : bool) (o : aout value) : out S X value :=
  match o with
  | Done v s => Retn v s
  | Retn v s => Retn v s
  | Abrupt (AX x) s => Abrupt x s
  | Abrupt (ALoc v) s => if catch then Retn v s else Stuck
  | Hang => Hang
  | Stuck => Stuck
  end.
Definition run_ast (am : amethod) (n : nat) (s : S) : out S X value :=
  match am with
  | AMeth catch body => answer catch (exec body n s)
  | ATriv t na => bind (exec_triv t na s) (fun v s => Retn v s)
  end.
(** The activation of a block. *)
Definition run_block (nd : node) (n : nat) (s : S) : out S X value :=
  match nd with
  | NBlk _ _ body _ _ => answer false (exec body n s)
  | NBlkT _ _ t na => bind (exec_triv t na s) (fun v s => Retn v s)
  | _ => Stuck
  end.
End Exec.

(** The blocks in a node, in the methods of these blocks, and so on. *)
Fixpoint blocks_in (nd : node) : list node :=
  match nd with
  | NLit _ | NArr _ | NRead _ _ | NSelf _ | NFldR _ _ | NFldI _ _ | NGlob _ | NUnk _ _ => []
  | NBlk _ _ body _ _ => nd :: blocks_in body
  | NBlkT _ _ _ _ => [nd]
  | NWrite _ _ e | NFldW _ _ e | NInc e | NRetNL _ e | NRetLoc e => blocks_in e
  | NSend _ r l | NSuper _ r l => blocks_in r ++ flat_map blocks_in l
  | NSeq l => flat_map blocks_in l
  | NIf _ c t | NIfNil c t | NIfNotNil c t | NWhile _ c t | NAnd c t | NOr c t =>
      blocks_in c ++ blocks_in t
  | NIfElse _ c t f | NIfNN c t f => blocks_in c ++ blocks_in t ++ blocks_in f
  end.
Definition blocks_of (am : amethod) : list node :=
  match am with AMeth _ body => blocks_in body | ATriv _ _ => [] end.
