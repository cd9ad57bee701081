(** The messages behind the control structures: the primitives of True, False and Block,
    som/primitives/true_primitives.py, false_primitives.py, block_primitives.py.  An argument
    is a block, given by what evaluating it does, or any other value. *)
From Coq Require Import ZArith Bool String Ascii List.
From Verif Require Import Base LexModel ParseModel BcModel BcInterp.
Import ListNotations.
Open Scope nat_scope.
Open Scope list_scope.

Section Prims.
Context {S X : Type}.
Notation out := (out S X).
Inductive carg := ABlk (run : S -> out value) | AVal (v : value).
(** true_primitives.py 20-24 (_and_and_if_true), false_primitives.py 20-24
    (_or_and_if_false): a block is invoked, another value is the answer *)
Definition invoke_or_answer (a : carg) (s : S) : out value :=
  match a with ABlk run => run s | AVal v => Done v s end.
(** true_primitives.py 12-13 (_not), 16-17 (_or), 27-28 (_if_false), 31-35
    (_if_true_if_false), installed in 38-51 *)
Definition true_prim (sel : text) (args : list carg) : option (S -> out value) :=
  match args with
  | [] => if text_eqb sel (str "not") then Some (fun s => Done VFalse s) else None
  | [a] =>
      if text_eqb sel (str "or:") then Some (fun s => Done VTrue s)
      else if text_eqb sel (str "||") then Some (fun s => Done VTrue s)
      else if text_eqb sel (str "and:") then Some (invoke_or_answer a)
      else if text_eqb sel (str "&&") then Some (invoke_or_answer a)
      else if text_eqb sel (str "ifTrue:") then Some (invoke_or_answer a)
      else if text_eqb sel (str "ifFalse:") then Some (fun s => Done VNil s)
      else None
  | [a; b] => if text_eqb sel (str "ifTrue:ifFalse:") then Some (invoke_or_answer a) else None
  | _ => None
  end.
(** false_primitives.py 12-13 (_not), 16-17 (_and), 31-35 (_if_true_if_false), installed in
    38-50.  ifTrue: is defined (27-28) but not installed. *)
Definition false_prim (sel : text) (args : list carg) : option (S -> out value) :=
  match args with
  | [] => if text_eqb sel (str "not") then Some (fun s => Done VTrue s) else None
  | [a] =>
      if text_eqb sel (str "and:") then Some (fun s => Done VFalse s)
      else if text_eqb sel (str "&&") then Some (fun s => Done VFalse s)
      else if text_eqb sel (str "or:") then Some (invoke_or_answer a)
      else if text_eqb sel (str "||") then Some (invoke_or_answer a)
      else if text_eqb sel (str "ifFalse:") then Some (invoke_or_answer a)
      else None
  | [a; b] => if text_eqb sel (str "ifTrue:ifFalse:") then Some (invoke_or_answer b) else None
  | _ => None
  end.
(** _while_loop (block_primitives.py 37-52): the condition is evaluated, then the body if the
    result is the object looked for, and so on; the answer is nil.  At most [n] rounds. *)
Fixpoint while_loop (n : nat) (test body : nat -> S -> out value) (while_type : value -> bool) (s : S)
  : out value :=
  match n with
  | O => Hang
  | Datatypes.S n' =>
      bind (test n s) (fun v s =>
      if while_type v then bind (body n s) (fun _ s => while_loop n' test body while_type s)
      else Done VNil s)
  end.
(** _while_false, _while_true (55-60): [is falseObject], [is trueObject] *)
Definition is_true (v : value) : bool := match v with VTrue => true | _ => false end.
Definition is_false (v : value) : bool := match v with VFalse => true | _ => false end.
Definition while_prim (b : bool) (n : nat) (test body : nat -> S -> out value) (s : S) : out value :=
  while_loop n test body (if b then is_true else is_false) s.
End Prims.
Arguments carg : clear implicits.
