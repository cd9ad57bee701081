(** What the source of a method means when the points on which the two interpreters differ
    are left open, over activations as in BcSpec; and the runs on which they do not matter. *)
From Coq Require Import ZArith Bool String Ascii List Lia.
From Verif Require Import Base LexModel ParseModel BcModel BcInterp BcSpec AstModel.
Import ListNotations.
Open Scope nat_scope.
Open Scope list_scope.

(** * Evaluation with the differences left open *)
Record ops (S X : Type) : Type := Ops {
  o_send : text -> list value -> S -> out S X value;
  (** before the receiver and the arguments of a super send *)
  o_ready : text -> S -> out S X unit;
  o_super : text -> list value -> S -> out S X value;
  (** a global known when the method is compiled *)
  o_glob : text -> S -> out S X value;
  (** another global: the level at which the interpreter takes self to be, the level at which
      it is, the name *)
  o_unk : nat -> nat -> text -> S -> out S X value;
  o_blk : nat -> S -> out S X value;
  o_rd : nat -> vref -> S -> out S X value;
  o_wr : nat -> vref -> value -> S -> out S X unit;
  o_getf : nat -> nat -> S -> out S X value;
  o_setf : nat -> nat -> value -> S -> out S X unit;
  (** [v + 1] and [v - 1] written with the literal 1 *)
  o_inc : value -> S -> out S X value;
  o_dec : value -> S -> out S X value;
  (** [v + 1] with the literal 1 written otherwise, like [v + (1)] *)
  o_plus : value -> S -> out S X value;
  o_arr : list slit -> S -> out S X value;
  (** is the condition met?  The flag is set for the operand of and:, or:, && and || *)
  o_test : bool -> cond -> value -> S -> out S X bool;
  (** [^ v] in a block whose home activation is that many levels out *)
  o_home : nat -> value -> S -> out S X value;
  (** are the variables of [a := b := e] assigned from right to left? *)
  o_rev : bool }.
Arguments o_send {S X}. Arguments o_ready {S X}. Arguments o_super {S X}. Arguments o_glob {S X}.
Arguments o_unk {S X}. Arguments o_blk {S X}. Arguments o_rd {S X}. Arguments o_wr {S X}.
Arguments o_getf {S X}. Arguments o_setf {S X}. Arguments o_inc {S X}. Arguments o_dec {S X}.
Arguments o_plus {S X}. Arguments o_arr {S X}. Arguments o_test {S X}. Arguments o_home {S X}.
Arguments o_rev {S X}.

(** How many blocks are run in place in the activations around the innermost one. *)
Definition in_place (rho : env) : nat :=
  list_sum (map (fun l => length (lv_layers l) - 1) (tl rho)).

(** The literal 1, written not directly behind the operator. *)
Definition adds_one (sup : bool) (sel : text) (args : list src) : bool :=
  negb sup && text_eqb sel t_plus &&
  match args with [SLit (SL (LV (VInt z)))] => Z.eqb z 1 | _ => false end.

Section Eval.
Context {S X : Type}.
Variable ce : cenv.
Variable o : ops S X.
Notation out := (out S X).

Definition o_read (rho : env) (n : text) (s : S) : out value :=
  match resolve n rho with
  | Some (k, v) => o_rd o k v s
  | None =>
      match position n (ce_fields ce) with
      | Some i => o_getf o (depth rho) i s
      | None => if text_eqb n t_nil then Done VNil s
                else if text_eqb n t_true then Done VTrue s
                else if text_eqb n t_false then Done VFalse s
                else if ce_known ce n then o_glob o n s
                else o_unk o (depth rho + in_place rho) (depth rho) n s
      end
  end.
Definition o_write (rho : env) (n : text) (v : value) (s : S) : out unit :=
  match resolve n rho with
  | Some (k, x) => o_wr o k x v s
  | None =>
      match position n (ce_fields ce) with
      | Some i => o_setf o (depth rho) i v s
      | None => Stuck
      end
  end.
Fixpoint o_writes (rho : env) (ns : list text) (v : value) (s : S) : out unit :=
  match ns with
  | [] => Done tt s
  | n :: r => bind (o_write rho n v s) (fun _ s => o_writes rho r v s)
  end.
Definition o_lit (l : slit) (s : S) : out value :=
  match l with
  | SL l => need (lit_value l) (fun v => Done v s)
  | SA ls => o_arr o ls s
  end.
Definition o_return (rho : env) (v : value) (s : S) : out value :=
  match depth rho with
  | O => Retn v s
  | k => o_home o k v s
  end.
Fixpoint o_while (n : nat) (test body : nat -> S -> out value) (until : cond) (s : S) : out value :=
  match n with
  | O => Hang
  | Datatypes.S n' =>
      bind (test n s) (fun v s =>
      bind (o_test o false until v s) (fun t s =>
      if t then Done VNil s
      else bind (body n s) (fun _ s => o_while n' test body until s)))
  end.

(** As [eval] of BcSpec. *)
Fixpoint oeval (e : src) (rho : env) (n : nat) (s : S) {struct e} : out value :=
  let inline (b : src) (n : nat) (s : S) : out value :=
    match b with
    | SBlk _ _ ls ss ret _ =>
        let rho := add_layer ls rho in
        (fix go (ss : list src) (s : S) : out value :=
           match ss with
           | [] => match ret with
                   | Some e => bind (oeval e rho n s) (fun v s => o_return rho v s)
                   | None => Done VNil s
                   end
           | e :: ss' => match ss', ret with
                         | [], None => oeval e rho n s
                         | _, _ => bind (oeval e rho n s) (fun _ s => go ss' s)
                         end
           end) ss s
    | _ => Stuck
    end in
  match e with
  | SVar v => o_read rho v s
  | SLit l => o_lit l s
  | SBlk label _ _ _ _ _ => o_blk o label s
  | SInc e => bind (oeval e rho n s) (fun v s => o_inc o v s)
  | SDec e => bind (oeval e rho n s) (fun v s => o_dec o v s)
  | SAsgn vs e =>
      bind (oeval e rho n s) (fun v s =>
      bind (o_writes rho (if o_rev o then rev vs else vs) v s) (fun _ s => Done v s))
  | SSend sup r sel args =>
      match special_form sup r sel args, args with
      | Some (KThen k), [a] =>
          bind (oeval r rho n s) (fun v s =>
          bind (o_test o false k v s) (fun t s =>
          if t then Done (left_value k v) s else inline a n s))
      | Some (KAndOr b), [a] =>
          bind (oeval r rho n s) (fun v s =>
          bind (o_test o true (if b then OnTrue else OnFalse) v s) (fun t s =>
          if t then Done (som_bool b) s else inline a n s))
      | Some (KElse k), [a; b] =>
          bind (oeval r rho n s) (fun v s =>
          bind (o_test o false k v s) (fun t s =>
          if t then inline b n s else inline a n s))
      | Some (KWhile b), [a] =>
          o_while n (inline r) (inline a) (if b then OnFalse else OnTrue) s
      | _, _ =>
          if adds_one sup sel args then bind (oeval r rho n s) (fun v s => o_plus o v s)
          else
          bind (if sup then o_ready o sel s else Done tt s) (fun _ s =>
          bind (oeval r rho n s) (fun v s =>
          (fix go (l : list src) (vs : list value) (s : S) : out value :=
             match l with
             | [] => if sup then o_super o sel vs s else o_send o sel vs s
             | a :: l => bind (oeval a rho n s) (fun v s => go l (vs ++ [v]) s)
             end) args [v] s))
      end
  end.
Fixpoint oeval_block (ss : list src) (ret : option src) (rho : env) (n : nat) (s : S) : out value :=
  match ss with
  | [] => match ret with
          | Some e => bind (oeval e rho n s) (fun v s => o_return rho v s)
          | None => Done VNil s
          end
  | e :: ss' => match ss', ret with
                | [], None => oeval e rho n s
                | _, _ => bind (oeval e rho n s) (fun _ s => oeval_block ss' ret rho n s)
                end
  end.
Fixpoint oeval_method (ss : list src) (ret : option src) (rho : env) (n : nat) (s : S) : out value :=
  match ss with
  | [] => match ret with
          | Some e => bind (oeval e rho n s) (fun v s => Retn v s)
          | None => bind (o_rd o 0 (VArg 0) s) (fun v s => Retn v s)
          end
  | e :: ss => bind (oeval e rho n s) (fun _ s => oeval_method ss ret rho n s)
  end.
(** A block when it is evaluated. *)
Definition oeval_closure (b : src) (rho : env) (n : nat) (s : S) : out value :=
  match b with
  | SBlk _ ps ls ss ret _ => bind (oeval_block ss ret (add_level ps ls rho) n s) (fun v s => Retn v s)
  | _ => Stuck
  end.
End Eval.

(** * The two interpreters *)
Section Two.
Context {S X : Type}.
(** The meaning given in BcSpec. *)
Definition bc_ops (m : machine S X) : ops S X := {|
  o_send := m_send m; o_ready := fun _ s => Done tt s; o_super := m_super m; o_glob := m_glob m;
  o_unk := fun _ _ => m_glob m; o_blk := m_blk m; o_rd := m_rd m; o_wr := m_wr m;
  o_getf := m_getf m; o_setf := m_setf m; o_inc := m_inc m; o_dec := m_dec m;
  o_plus := fun v => m_send m t_plus [v; VInt 1];
  o_arr := fun ls => eval_lit m (SA ls);
  o_test := fun _ k v s => Done (takes k v) s;
  o_home := fun k v s => bind (m_nlr m k v s) (fun v s => Retn v s);
  o_rev := false |}.
(** Is [v] one of the two values the condition distinguishes? *)
Definition decided (k : cond) (v : value) : bool :=
  match k with
  | OnTrue | OnFalse => match v with VTrue | VFalse => true | _ => false end
  | OnNil | OnNotNil => true
  end.
(** In the AST interpreter a super send looks for the method first, an unknown global is
    looked for from the level given, [v - 1] is a message, [v + (1)] is not, a literal array
    is made once, a condition must be a Boolean, and a [^] whose home activation is gone has
    a value. *)
Definition ast_ops (μ : amachine S X) : ops S X :=
  let m := a_mach μ in {|
  o_send := m_send m;
  o_ready := fun t s => if a_super μ t s then Done tt s else Abrupt (a_exn μ PyException) s;
  o_super := m_super m; o_glob := m_glob m;
  o_unk := fun k _ => a_glob μ k;
  o_blk := m_blk m; o_rd := m_rd m; o_wr := m_wr m;
  o_getf := m_getf m; o_setf := m_setf m; o_inc := m_inc m;
  o_dec := fun v => m_send m t_minus [v; VInt 1];
  o_plus := m_inc m;
  o_arr := a_arr μ;
  o_test := fun a k v s => if decided k v then Done (takes k v) s
                           else Abrupt (a_exn μ (if a then AssertionError else NotImplementedErr)) s;
  o_home := m_nlr m;
  o_rev := true |}.

(** * Runs on which the differences do not matter *)
(** An exception of the VM, or ([None]) a point on which the interpreters differ. *)
Definition up {A} (o : out S X A) : out S (option X) A :=
  match o with
  | Done a s => Done a s
  | Retn v s => Retn v s
  | Abrupt x s => Abrupt (Some x) s
  | Hang => Hang
  | Stuck => Stuck
  end.
Definition alarm {A} (s : S) : out S (option X) A := Abrupt None s.
Definition small (v : value) : bool := match v with VInt _ | VDbl _ => true | _ => false end.
(** Alarms: a super send without a method; an unknown global for which the AST interpreter
    looks for self at a wrong level; adding 1 to or subtracting 1 from something else than an
    Integer or a Double; a literal array; a condition that is not a Boolean; a [^] whose home
    activation is gone and that goes on nevertheless. *)
Definition careful_ops (μ : amachine S X) : ops S (option X) :=
  let m := a_mach μ in {|
  o_send := fun t l s => up (m_send m t l s);
  o_ready := fun t s => if a_super μ t s then Done tt s else alarm s;
  o_super := fun t l s => up (m_super m t l s);
  o_glob := fun n s => up (m_glob m n s);
  o_unk := fun k d n s => if k =? d then up (m_glob m n s) else alarm s;
  o_blk := fun l s => up (m_blk m l s);
  o_rd := fun k v s => up (m_rd m k v s);
  o_wr := fun k v x s => up (m_wr m k v x s);
  o_getf := fun k i s => up (m_getf m k i s);
  o_setf := fun k i x s => up (m_setf m k i x s);
  o_inc := fun v s => up (m_inc m v s);
  o_dec := fun v s => if small v then up (m_dec m v s) else alarm s;
  o_plus := fun v s => if small v then up (m_inc m v s) else alarm s;
  o_arr := fun _ s => alarm s;
  o_test := fun _ k v s => if decided k v then Done (takes k v) s else alarm s;
  o_home := fun k v s => match m_nlr m k v s with Done _ s => alarm s | o => up o end;
  o_rev := false |}.
Definition quiet {A} (f : nat -> S -> out S (option X) A) (s : S) : Prop :=
  forall n s', f n s <> Abrupt None s'.

(** What is asked of the machine: adding and subtracting 1 is sending + and - to an Integer
    or a Double, and with self [d] levels out, an unknown global is looked for in the same
    way. *)
Record agree (μ : amachine S X) (d : nat) : Prop := {
  ag_inc : forall v s, small v = true -> m_send (a_mach μ) t_plus [v; VInt 1] s = m_inc (a_mach μ) v s;
  ag_dec : forall v s, small v = true -> m_send (a_mach μ) t_minus [v; VInt 1] s = m_dec (a_mach μ) v s;
  ag_glob : forall n s, a_glob μ d n s = m_glob (a_mach μ) n s }.
(** Assigning a value to two variables, the order does not matter. *)
Definition commuting (ce : cenv) (m : machine S X) : Prop :=
  forall rho a b v s,
    bind (write_var (ce_fields ce) m rho a v s) (fun _ s => write_var (ce_fields ce) m rho b v s) =
    bind (write_var (ce_fields ce) m rho b v s) (fun _ s => write_var (ce_fields ce) m rho a v s).
End Two.

(** * Which sources are considered *)
(** Nothing but the receiver is called self. *)
Definition no_self (l : list text) : bool := forallb (fun n => negb (text_eqb n t_self)) l.
Fixpoint self_ok (e : src) : bool :=
  match e with
  | SVar _ | SLit _ => true
  | SSend _ r _ args => self_ok r && forallb self_ok args
  | SInc e | SDec e | SAsgn _ e => self_ok e
  | SBlk _ ps ls ss ret _ =>
      no_self ps && no_self (map fst ls) && forallb self_ok ss &&
      match ret with Some e => self_ok e | None => true end
  end.
Definition self_ret (ret : option src) : bool := match ret with Some e => self_ok e | None => true end.
(** One variable is assigned at a time. *)
Fixpoint single (e : src) : bool :=
  match e with
  | SVar _ | SLit _ => true
  | SSend _ r _ args => single r && forallb single args
  | SInc e | SDec e => single e
  | SAsgn vs e => (length vs <=? 1) && single e
  | SBlk _ _ _ ss ret _ =>
      forallb single ss && match ret with Some e => single e | None => true end
  end.
Definition single_ret (ret : option src) : bool := match ret with Some e => single e | None => true end.
(** The method is [ ^ f := x ] and nothing else. *)
Definition answers_assignment (ss : list src) (ret : option src) : bool :=
  match ss, ret with [], Some (SAsgn [_] (SVar _)) => true | _, _ => false end.
