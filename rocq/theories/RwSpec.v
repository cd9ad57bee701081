(** What running a program means when its nodes never change: the meaning of C49, over a VM that enters
    methods and blocks. *)
From Coq Require Import ZArith Bool String Ascii List Lia.
From Verif Require Import Base LexModel ParseModel BcModel BcInterp AstModel RwModel.
Import ListNotations.
Open Scope nat_scope.
Open Scope list_scope.

Section Spec.
Context {S X : Type}.
Variable V : vmachine S X.
(** What the VM does, given what entering a method or block does. *)
Fixpoint run_act {A} (run : nat -> S -> out S (astop X) value) (a : act S X A) : out S X A :=
  match a with
  | AEnd o => o
  | ACall l s k =>
      match run l s with
      | Done v s => run_act run (k (FDone v) s)
      | Retn v s => run_act run (k (FRetn v) s)
      | Abrupt x s => run_act run (k (FAbrupt x) s)
      | Hang => Hang
      | Stuck => Stuck
      end
  end.
(** The VM as the nodes of AstModel see it (nothing in the AST asks for a decrement). *)
Definition machine_of (run : nat -> S -> out S (astop X) value) : amachine S X :=
  AMachine S X
    (Machine S X
      (fun sel vs s => run_act run (v_send V sel vs s))
      (fun sel vs s => run_act run (v_super V sel vs s))
      (fun g s => run_act run (v_glob V g s))
      (fun l s => run_act run (v_blk V l s))
      (fun k v s => run_act run (v_rd V k v s))
      (fun k v a s => run_act run (v_wr V k v a s))
      (fun k i s => run_act run (v_getf V k i s))
      (fun k i a s => run_act run (v_setf V k i a s))
      (fun k i s => run_act run (v_incf V k i s))
      (fun v s => run_act run (v_inc V v s))
      (fun _ _ => Stuck)
      (fun k v s => run_act run (v_nlr V k v s)))
    (fun k g s => run_act run (v_unk V k g s))
    (v_has_super V)
    (fun ls s => run_act run (v_arr V ls s))
    (v_exn V).
(** Entering the method or block [l] of a program: its body, as it was compiled, is executed. *)
Fixpoint arun (bodies : list node) (n : nat) (l : nat) (s : S) : out S (astop X) value :=
  match n with
  | O => Hang
  | Datatypes.S n' =>
      match nth_error bodies l with
      | None => Stuck
      | Some nd => exec (machine_of (arun bodies n')) nd n s
      end
  end.
(** Globals are never removed, whatever the VM does, and a global that exists is read as one
    (universe.py 382-398; global_read_node.py 38-69). *)
Definition le (s s' : S) : Prop := forall g, v_has V g s = true -> v_has V g s' = true.
Fixpoint grows {A} (s : S) (a : act S X A) : Prop :=
  match a with
  | AEnd (Done _ s') | AEnd (Retn _ s') | AEnd (Abrupt _ s') => le s s'
  | AEnd _ => True
  | ACall l s' k => le s s' /\ forall f s'', le s' s'' -> grows s'' (k f s'')
  end.
Record lawful : Prop := {
  g_send : forall sel vs s, grows s (v_send V sel vs s);
  g_super : forall sel vs s, grows s (v_super V sel vs s);
  g_glob : forall g s, grows s (v_glob V g s);
  g_unk : forall k g s, grows s (v_unk V k g s);
  g_blk : forall l s, grows s (v_blk V l s);
  g_rd : forall k v s, grows s (v_rd V k v s);
  g_wr : forall k v a s, grows s (v_wr V k v a s);
  g_getf : forall k i s, grows s (v_getf V k i s);
  g_setf : forall k i a s, grows s (v_setf V k i a s);
  g_incf : forall k i s, grows s (v_incf V k i s);
  g_inc : forall v s, grows s (v_inc V v s);
  g_nlr : forall k v s, grows s (v_nlr V k v s);
  g_arr : forall ls s, grows s (v_arr V ls s);
  g_known : forall k g s, v_has V g s = true -> v_unk V k g s = v_glob V g s }.
End Spec.

(** How deep a node is nested; a bound for all bodies of a program. *)
Fixpoint height (nd : node) : nat :=
  match nd with
  | NWrite _ _ e | NFldW _ _ e | NInc e | NRetNL _ e | NRetLoc e => Datatypes.S (height e)
  | NSend _ r l | NSuper _ r l => Datatypes.S (Nat.max (height r) (list_max (map height l)))
  | NSeq l => Datatypes.S (list_max (map height l))
  | NIf _ a b | NIfNil a b | NIfNotNil a b | NWhile _ a b | NAnd a b | NOr a b =>
      Datatypes.S (Nat.max (height a) (height b))
  | NIfElse _ a b c | NIfNN a b c => Datatypes.S (Nat.max (height a) (Nat.max (height b) (height c)))
  | _ => 1
  end.
Definition deepest (bodies : list node) : nat := list_max (map height bodies).
(** What is seen of a run from outside: not the nodes. *)
Definition seen {S X A K} (o : out (S * heap K) X A) : out S X A :=
  match o with
  | Done a x => Done a (fst x) | Retn v x => Retn v (fst x) | Abrupt e x => Abrupt e (fst x)
  | Hang => Hang | Stuck => Stuck
  end.
(** A history of calls from outside, on one and the same program: each is entered in the state the one
    before has left, until one of them does not come back. *)
Fixpoint calls {T X} (run : nat -> T -> out T (astop X) value) (ls : list nat) (x : T) : list (out T (astop X) value) :=
  match ls with
  | [] => []
  | l :: ls => run l x :: match run l x with
                          | Done _ x' | Retn _ x' | Abrupt _ x' => calls run ls x'
                          | _ => []
                          end
  end.
