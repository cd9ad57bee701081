(** The block methods inside a compiled method, and the block literals inside a source. *)
From Coq Require Import ZArith Bool String Ascii List Lia.
From Verif Require Import Base LexModel ParseModel BcModel BcInterp BcSpec.
Import ListNotations.
Open Scope nat_scope.
Open Scope list_scope.

(** The operands of the bytecodes that make blocks, in the order of the bytes; [skip] bytes
    belong to the instruction before.  (interpreter/bc/interpreter.py 184-194,
    interpreter/bc/bytecodes.py bytecode_length) *)
Fixpoint pushed (skip : nat) (bs : list nat) : list nat :=
  match bs with
  | [] => []
  | n :: r =>
      match skip with
      | S k => pushed k r
      | O => match of_num n with
             | Some b =>
                 (match b, r with
                  | (B_push_block | B_push_block_no_ctx), i :: _ => [i]
                  | _, _ => []
                  end) ++ pushed (blen b - 1) r
             | None => pushed 0 r
             end
      end
  end.

(** The methods of the blocks a method makes, of the blocks these make and so on, each with
    the locals of the methods around it: method first, then what is inside. *)
Fixpoint inside (m : meth) (outer : list (list nat)) {struct m} : list (list (list nat) * meth) :=
  match m with
  | Meth _ bytes lits locals _ _ _ _ =>
      let tables := map (fun l => match l with LM m => fun o => (o, m) :: inside m o | _ => fun _ => [] end) lits in
      flat_map (fun i => nth i tables (fun _ => []) (map snd locals :: outer)) (pushed 0 bytes)
  end.

(** The block literals of an expression, of the statements of these blocks and so on, each
    with the activations around it. *)
Fixpoint blocks (e : src) (rho : env) {struct e} : list (src * env) :=
  let body (ss : list src) (ret : option src) (rho : env) : list (src * env) :=
    flat_map (fun e => blocks e rho) ss ++ match ret with Some e => blocks e rho | None => [] end in
  let inline (b : src) : list (src * env) :=
    match b with SBlk _ _ ls ss ret _ => body ss ret (add_layer ls rho) | _ => [] end in
  match e with
  | SVar _ | SLit _ => []
  | SBlk _ ps ls ss ret _ => (e, rho) :: body ss ret (add_level ps ls rho)
  | SInc e | SDec e | SAsgn _ e => blocks e rho
  | SSend sup r sel args =>
      match special_form sup r sel args with
      | Some (KWhile _) => inline r ++ flat_map inline args
      | Some _ => blocks r rho ++ flat_map inline args
      | None => blocks r rho ++ flat_map (fun a => blocks a rho) args
      end
  end.
Definition body_blocks (ss : list src) (ret : option src) (rho : env) : list (src * env) :=
  flat_map (fun e => blocks e rho) ss ++ match ret with Some e => blocks e rho | None => [] end.

(** What a block does when it is evaluated: its statements, and the value of the last. *)
Definition eval_closure {S X} (fields : list text) (b : src) (rho : env) (μ : machine S X) (n : nat) (s : S)
  : out S X value :=
  match b with
  | SBlk _ ps ls ss ret _ =>
      bind (eval_block fields ss ret μ (add_level ps ls rho) n s) (fun v s => Retn v s)
  | _ => Stuck
  end.
Definition label_is (m : meth) (b : src) : Prop :=
  match b with SBlk l _ _ _ _ _ => me_label m = l | _ => False end.

(** * Operand stacks *)
(** The addresses and operand stacks an execution of a method comes by. *)
Inductive visits {S X} (μ : machine S X) (outer : list (list nat)) (m : meth) (s0 : S)
  : nat -> list value -> S -> Prop :=
| at_start : visits μ outer m s0 0 [] s0
| at_next pc st s pc' st' s' : visits μ outer m s0 pc st s ->
    step μ (Z.to_nat (me_max m)) (map snd (me_locals m) :: outer) (me_lits m) (me_bytes m) pc st s =
      Done (pc', st') s' ->
    visits μ outer m s0 pc' st' s'.
(** A machine whose own operations do not go wrong. *)
Record well_behaved {S X} (μ : machine S X) : Prop := {
  wb_send : forall t l s, m_send μ t l s <> Stuck;
  wb_super : forall t l s, m_super μ t l s <> Stuck;
  wb_glob : forall t s, m_glob μ t s <> Stuck;
  wb_blk : forall l s, m_blk μ l s <> Stuck;
  wb_rd : forall k v s, m_rd μ k v s <> Stuck;
  wb_wr : forall k v x s, m_wr μ k v x s <> Stuck;
  wb_getf : forall k i s, m_getf μ k i s <> Stuck;
  wb_setf : forall k i v s, m_setf μ k i v s <> Stuck;
  wb_incf : forall k i s, m_incf μ k i s <> Stuck;
  wb_inc : forall v s, m_inc μ v s <> Stuck;
  wb_dec : forall v s, m_dec μ v s <> Stuck;
  wb_nlr : forall k v s, m_nlr μ k v s <> Stuck }.

(** * Jumps *)
(** Where execution goes on after a jump instruction whose target is [target] and that is
    followed by [next]: there if there is no condition, otherwise depending on the value on
    top of the stack, which is taken off, except that the jumps of the kind [JTop] leave the
    value of the control structure when they are taken. *)
Definition jump_to {S X} (k : jkind) (target next : nat) (st : list value) (s : S)
  : out S X (nat * list value) :=
  match k, st with
  | (JAlways | JBack), _ => Done (target, st) s
  | JTop c, v :: r => if takes c v then Done (target, left_value c v :: r) s else Done (next, r) s
  | JPop c, v :: r => if takes c v then Done (target, r) s else Done (next, r) s
  | _, [] => Stuck
  end.

(** * Names *)
(** The compiler's contexts, innermost first, are those of the activations [rho]: the same
    parameters, and the locals in the order of their declaration; locals of inlined blocks
    may follow under qualified names, which no source name equals.
    (compiler/method_generation_context.py 13-84) *)
Definition contexts_of : list scope -> env -> Prop :=
  Forall2 (fun sc l => lv_args l = sc_args sc /\
    exists ls qs, lv_layers l = [ls] /\
      sc_locals sc = map (fun x => (Plain (fst x), snd x)) ls ++ qs /\
      Forall (fun q : local => exists n s, fst q = Qual n s) qs).
(** The tables through which the interpreter finds a local: of each method its locals. *)
Definition tables_of (scs : list scope) : list (list nat) := map (fun sc => map snd (sc_locals sc)) scs.
(** [v] is the variable that the declaration of [n] closest to the innermost activation
    makes; it belongs to the activation [k] levels out. *)
Definition innermost (n : text) (rho : env) (k : nat) (v : vref) : Prop :=
  (exists l, nth_error rho k = Some l /\ in_level n l = Some v) /\
  forall j l, j < k -> nth_error rho j = Some l -> in_level n l = None.
Definition undeclared (n : text) (rho : env) : Prop := Forall (fun l => in_level n l = None) rho.

(** * Lexical nesting *)
(** The methods and blocks around an expression as they are nested in the source, innermost
    first, each with its own declarations, and whether it has an activation of its own
    ([false]: it is inlined). *)
Definition lexenv := list (bool * level).
(** The activations: the locals of an inlined block belong to the one around it. *)
Fixpoint activations (L : lexenv) : env :=
  match L with
  | [] => []
  | (true, l) :: r => l :: activations r
  | (false, l) :: r =>
      match activations r with
      | a :: r => Level (lv_layers l ++ lv_layers a) (lv_args a) :: r
      | [] => []
      end
  end.
(** How many activations out the [k]-th method or block around is. *)
Definition activation_of (k : nat) (L : lexenv) : nat := length (filter fst (firstn k L)).
(** A method is around everything, and inlined blocks have no parameters. *)
Fixpoint lex_ok (L : lexenv) : Prop :=
  match L with
  | [] => False
  | [(own, _)] => own = true
  | (own, l) :: r => (own = false -> lv_args l = [t_block_self]) /\ lex_ok r
  end.
(** The block literals inside, as [blocks], with the nesting around them. *)
Fixpoint lex_blocks (e : src) (L : lexenv) {struct e} : list (src * lexenv) :=
  let body (ss : list src) (ret : option src) (L : lexenv) : list (src * lexenv) :=
    flat_map (fun e => lex_blocks e L) ss ++ match ret with Some e => lex_blocks e L | None => [] end in
  let inline (b : src) : list (src * lexenv) :=
    match b with SBlk _ _ ls ss ret _ => body ss ret ((false, Level [ls] [t_block_self]) :: L) | _ => [] end in
  match e with
  | SVar _ | SLit _ => []
  | SBlk _ ps ls ss ret _ => (e, L) :: body ss ret ((true, Level [ls] (t_block_self :: ps)) :: L)
  | SInc e | SDec e | SAsgn _ e => lex_blocks e L
  | SSend sup r sel args =>
      match special_form sup r sel args with
      | Some (KWhile _) => inline r ++ flat_map inline args
      | Some _ => lex_blocks r L ++ flat_map inline args
      | None => lex_blocks r L ++ flat_map (fun a => lex_blocks a L) args
      end
  end.
Definition lex_body (ss : list src) (ret : option src) (L : lexenv) : list (src * lexenv) :=
  flat_map (fun e => lex_blocks e L) ss ++ match ret with Some e => lex_blocks e L | None => [] end.
