(** What the source of a method means, over a machine: names resolved to the innermost
    declaration, expressions evaluated from left to right.  Independent of bytecodes,
    contexts and the compiler. *)
From Coq Require Import ZArith Bool String Ascii List Lia.
From Verif Require Import Base LexModel ParseModel BcModel BcInterp.
Import ListNotations.
Open Scope nat_scope.
Open Scope list_scope.

(** * Names *)
(** The declarations visible in one activation: the local variables of the method or block
    and of the blocks that run in the same activation, innermost block first, and the
    parameters (the first is the receiver). *)
Record level := Level { lv_layers : list (list (text * nat)); lv_args : list text }.
(** The activations around an expression, innermost first. *)
Definition env := list level.

Fixpoint in_layer (n : text) (l : list (text * nat)) : option nat :=
  match l with
  | [] => None
  | (m, d) :: r => if text_eqb n m then Some d else in_layer n r
  end.
Fixpoint in_layers (n : text) (ls : list (list (text * nat))) : option nat :=
  match ls with
  | [] => None
  | l :: r => match in_layer n l with Some d => Some d | None => in_layers n r end
  end.
Fixpoint position (n : text) (l : list text) : option nat :=
  match l with
  | [] => None
  | x :: r => if text_eqb n x then Some 0 else option_map S (position n r)
  end.
Definition in_level (n : text) (l : level) : option vref :=
  match in_layers n (lv_layers l) with
  | Some d => Some (VLoc d)
  | None => option_map VArg (position n (lv_args l))
  end.
(** How many activations out the innermost declaration is, and which variable. *)
Fixpoint resolve (n : text) (rho : env) : option (nat * vref) :=
  match rho with
  | [] => None
  | l :: r => match in_level n l with
              | Some v => Some (0, v)
              | None => option_map (fun p => (S (fst p), snd p)) (resolve n r)
              end
  end.
Definition depth (rho : env) : nat := length rho - 1.
(** The locals of a block run in the activation of the expression around it, or in one of
    its own. *)
Definition add_layer (ls : list (text * nat)) (rho : env) : env :=
  match rho with
  | l :: r => Level (ls :: lv_layers l) (lv_args l) :: r
  | [] => []
  end.
Definition add_level (ps : list text) (ls : list (text * nat)) (rho : env) : env :=
  Level [ls] (t_block_self :: ps) :: rho.

(** * Evaluation *)
Section Eval.
Context {S X : Type}.
Variable fields : list text.
Notation out := (out S X).

Definition read_var (μ : machine S X) (rho : env) (n : text) (s : S) : out value :=
  match resolve n rho with
  | Some (k, v) => m_rd μ k v s
  | None =>
      match position n fields with
      | Some i => m_getf μ (depth rho) i s
      | None => if text_eqb n t_nil then Done VNil s
                else if text_eqb n t_true then Done VTrue s
                else if text_eqb n t_false then Done VFalse s
                else m_glob μ n s
      end
  end.
Definition write_var (μ : machine S X) (rho : env) (n : text) (v : value) (s : S) : out unit :=
  match resolve n rho with
  | Some (k, x) => m_wr μ k x v s
  | None =>
      match position n fields with
      | Some i => m_setf μ (depth rho) i v s
      | None => Stuck
      end
  end.
Fixpoint write_vars (μ : machine S X) (rho : env) (ns : list text) (v : value) (s : S)
  : out unit :=
  match ns with
  | [] => Done tt s
  | n :: r => bind (write_var μ rho n v s) (fun _ s => write_vars μ rho r v s)
  end.

(** A literal array is a new array, filled from left to right. *)
Fixpoint eval_lit (μ : machine S X) (l : slit) (s : S) {struct l} : out value :=
  match l with
  | SL l => need (lit_value l) (fun v => Done v s)
  | SA ls =>
      bind (m_glob μ t_array s) (fun a s =>
      bind (m_send μ t_new [a; VInt (Z.of_nat (length ls))] s) (fun arr s =>
      (fix go (i : nat) (ls : list slit) (arr : value) (s : S) : out value :=
         match ls with
         | [] => Done arr s
         | l :: ls => bind (eval_lit μ l s) (fun v s =>
                      bind (m_send μ t_at_put [arr; VInt (Z.of_nat i); v] s) (fun arr s =>
                      go (Datatypes.S i) ls arr s))
         end) 1 ls arr s))
  end.

(** [^ v] in activation [rho]: answer from a method, return from the home method otherwise. *)
Definition return_from (μ : machine S X) (rho : env) (v : value) (s : S) : out value :=
  match depth rho with
  | O => Retn v s
  | k => bind (m_nlr μ k v s) (fun v s => Retn v s)
  end.

(** At most [n] rounds. *)
Fixpoint repeat_while (n : nat) (test body : nat -> S -> out value) (until : cond) (s : S)
  : out value :=
  match n with
  | O => Hang
  | Datatypes.S n' =>
      bind (test n s) (fun v s =>
      if takes until v then Done VNil s
      else bind (body n s) (fun _ s => repeat_while n' test body until s))
  end.

(** Is the expression a block literal?  *)
Definition is_block (e : src) : bool := match e with SBlk _ _ _ _ _ _ => true | _ => false end.
(** The special forms: control structures whose blocks are literals. *)
Definition special_form (sup : bool) (r : src) (sel : text) (args : list src) : option special :=
  if sup then None
  else match special_of sel, args with
       | Some (KThen k), [a] => if is_block a then Some (KThen k) else None
       | Some (KAndOr b), [a] => if is_block a then Some (KAndOr b) else None
       | Some (KWhile b), [a] => if is_block r && is_block a then Some (KWhile b) else None
       | Some (KElse k), [a; b] => if is_block a && is_block b then Some (KElse k) else None
       | _, _ => None
       end.

(** The value of an expression; [n] bounds the rounds of every loop.  The blocks of a special
    form run in the activation of the expression. *)
Fixpoint eval (e : src) (μ : machine S X) (rho : env) (n : nat) (s : S) {struct e} : out value :=
  let inline (b : src) (n : nat) (s : S) : out value :=
    match b with
    | SBlk _ _ ls ss ret _ =>
        let rho := add_layer ls rho in
        (fix go (ss : list src) (s : S) : out value :=
           match ss with
           | [] => match ret with
                   | Some e => bind (eval e μ rho n s) (fun v s => return_from μ rho v s)
                   | None => Done VNil s
                   end
           | e :: ss' => match ss', ret with
                         | [], None => eval e μ rho n s
                         | _, _ => bind (eval e μ rho n s) (fun _ s => go ss' s)
                         end
           end) ss s
    | _ => Stuck
    end in
  match e with
  | SVar v => read_var μ rho v s
  | SLit l => eval_lit μ l s
  | SBlk label _ _ _ _ _ => m_blk μ label s
  | SInc e => bind (eval e μ rho n s) (fun v s => m_inc μ v s)
  | SDec e => bind (eval e μ rho n s) (fun v s => m_dec μ v s)
  | SAsgn vs e =>
      bind (eval e μ rho n s) (fun v s => bind (write_vars μ rho vs v s) (fun _ s => Done v s))
  | SSend sup r sel args =>
      match special_form sup r sel args, args with
      | Some (KThen k), [a] =>
          bind (eval r μ rho n s) (fun v s =>
          if takes k v then Done (left_value k v) s else inline a n s)
      | Some (KAndOr b), [a] =>
          bind (eval r μ rho n s) (fun v s =>
          if takes (if b then OnTrue else OnFalse) v then Done (som_bool b) s
          else inline a n s)
      | Some (KElse k), [a; b] =>
          bind (eval r μ rho n s) (fun v s =>
          if takes k v then inline b n s else inline a n s)
      | Some (KWhile b), [a] =>
          repeat_while n (inline r) (inline a) (if b then OnFalse else OnTrue) s
      | _, _ =>
          bind (eval r μ rho n s) (fun v s =>
          (fix go (l : list src) (vs : list value) (s : S) : out value :=
             match l with
             | [] => if sup then m_super μ sel vs s else m_send μ sel vs s
             | a :: l => bind (eval a μ rho n s) (fun v s => go l (vs ++ [v]) s)
             end) args [v] s)
      end
  end.

(** The statements of a block, in their own environment. *)
Fixpoint eval_block (ss : list src) (ret : option src) (μ : machine S X) (rho : env) (n : nat)
  (s : S) : out value :=
  match ss with
  | [] => match ret with
          | Some e => bind (eval e μ rho n s) (fun v s => return_from μ rho v s)
          | None => Done VNil s
          end
  | e :: ss' => match ss', ret with
                | [], None => eval e μ rho n s
                | _, _ => bind (eval e μ rho n s) (fun _ s => eval_block ss' ret μ rho n s)
                end
  end.
(** The statements of a method; without [^] it answers the receiver. *)
Fixpoint eval_method (ss : list src) (ret : option src) (μ : machine S X) (rho : env) (n : nat)
  (s : S) : out value :=
  match ss with
  | [] => match ret with
          | Some e => bind (eval e μ rho n s) (fun v s => Retn v s)
          | None => bind (m_rd μ 0 (VArg 0) s) (fun v s => Retn v s)
          end
  | e :: ss => bind (eval e μ rho n s) (fun _ s => eval_method ss ret μ rho n s)
  end.
End Eval.

(** * Blocks *)
(** The block literals that evaluating an expression can create, with the activations around
    them.  The blocks of special forms are not created; their statements run in place. *)
Fixpoint created (e : src) (rho : env) {struct e} : list (src * env) :=
  let inline (b : src) : list (src * env) :=
    match b with
    | SBlk _ _ ls ss ret _ =>
        let rho := add_layer ls rho in
        flat_map (fun e => created e rho) ss ++
        match ret with Some e => created e rho | None => [] end
    | _ => []
    end in
  match e with
  | SVar _ | SLit _ => []
  | SBlk _ _ _ _ _ _ => [(e, rho)]
  | SInc e | SDec e | SAsgn _ e => created e rho
  | SSend sup r sel args =>
      match special_form sup r sel args with
      | Some (KWhile _) => inline r ++ flat_map inline args
      | Some _ => created r rho ++ flat_map inline args
      | None => created r rho ++ flat_map (fun a => created a rho) args
      end
  end.
Definition created_body (ss : list src) (ret : option src) (rho : env) : list (src * env) :=
  flat_map (fun e => created e rho) ss ++
  match ret with Some e => created e rho | None => [] end.

(** * Limits *)
(** [f] and [g] take a bound on the steps and say [Hang] when it is reached: they have the
    same outcome once the bounds are large enough, and none of them has one if the other has
    not. *)
Definition settles {S X A} (g : nat -> S -> out S X A) (s : S) (o : out S X A) : Prop :=
  exists K, forall k, K <= k -> g k s = o.
Definition same_outcome {S X A} (f g : nat -> S -> out S X A) (s : S) : Prop :=
  (forall n, f n s <> Hang -> settles g s (f n s)) /\
  (forall k, g k s <> Hang -> settles f s (g k s)).

(** * Which sources are considered *)
Definition name_ok (n : text) : bool := negb (text_eqb n t_block_self).
Fixpoint ok_lit (l : slit) : bool :=
  match l with
  | SL (LS t) => negb (text_eqb t placeholder)
  | SL (LV _) => true
  | SL (LM _) => false
  | SA ls => forallb ok_lit ls
  end.
Definition no_params (b : src) : bool :=
  match b with SBlk _ ps _ _ _ _ => match ps with [] => true | _ => false end | _ => true end.
(** Selectors have as many arguments as given; the blocks of a special form have no
    parameters; an assignment has a variable; no literal is the symbol used as a placeholder; nothing is
    called $blockSelf. *)
Fixpoint ok_src (e : src) : bool :=
  match e with
  | SVar n => name_ok n
  | SLit l => ok_lit l
  | SSend sup r sel args =>
      ok_src r && forallb ok_src args && (nargs sel =? S (length args)) &&
      match special_form sup r sel args with
      | Some (KWhile _) => no_params r && forallb no_params args
      | Some _ => forallb no_params args
      | None => true
      end
  | SInc e | SDec e => ok_src e
  | SAsgn vs e => match vs with [] => false | _ => forallb name_ok vs end && ok_src e
  | SBlk _ ps ls ss ret _ =>
      forallb name_ok ps && forallb name_ok (map fst ls) && forallb ok_src ss &&
      match ret with Some e => ok_src e | None => true end
  end.
Definition ok_ret (ret : option src) : bool := match ret with Some e => ok_src e | None => true end.

(** * Machines *)
(** The bytecode inc_field does what reading the field, adding one and writing it does. *)
Definition lawful {S X} (μ : machine S X) : Prop :=
  forall k i s, m_incf μ k i s =
    bind (m_getf μ k i s) (fun v s =>
    bind (m_inc μ v s) (fun v s =>
    bind (m_setf μ k i v s) (fun _ s => Done v s))).
