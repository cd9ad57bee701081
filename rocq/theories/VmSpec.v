(** What returning out of a block means: activations form a stack, and a return goes to the
    activation of the method the block belongs to if it is on the stack. *)
From Coq Require Import ZArith Bool String Ascii List Lia.
From Verif Require Import Base LexModel ParseModel BcModel BcInterp BcSpec BcTab VmModel.
Import ListNotations.
Open Scope nat_scope.
Open Scope list_scope.

(** * Programs given by their sources *)
(** A method: the fields of its class, its parameters, locals and statements. *)
Record msrc := Msrc {
  ms_fields : list text; ms_params : list text; ms_locals : list (text * nat);
  ms_body : list src; ms_ret : option src }.
Definition ms_env (m : msrc) : env := [Level [ms_locals m] (t_self :: ms_params m)].
(** The block literals in it, each with the activations around it. *)
Definition ms_blocks (m : msrc) : list (src * env) := body_blocks (ms_body m) (ms_ret m) (ms_env m).
Definition label_of (b : src) : nat := match b with SBlk l _ _ _ _ _ => l | _ => 0 end.
Definition block_of (m : msrc) (l : nat) : option (src * env) :=
  find (fun p => label_of (fst p) =? l) (ms_blocks m).
(** What the methods of a program and the block literals in them do. *)
Definition source_body (M : nat -> option msrc) (mid : nat) (blk : option nat)
  (μ : machine vm stop) (n : nat) (s : vm) : vout value :=
  match M mid, blk with
  | Some m, None => eval_method (ms_fields m) (ms_body m) (ms_ret m) μ (ms_env m) n s
  | Some m, Some l => match block_of m l with
                      | Some (b, rho) => eval_closure (ms_fields m) b rho μ n s
                      | None => Stuck
                      end
  | None, _ => Stuck
  end.

(** * Returns *)
(** The activation of the method around an activation of a block. *)
Fixpoint home (fs : list frame) (n fid : nat) : nat :=
  match n with
  | O => fid
  | S n => match nth_error fs fid with
           | Some f => match f_outer f with Some o => home fs n o | None => fid end
           | None => fid
           end
  end.
Definition home_of (s : vm) (fid : nat) : nat := home (v_frames s) (length (v_frames s)) fid.

Section Spec.
Variable P : prog.
(** [^ v] in activation [fid] while the activations [stk] are running: on with the return to
    the home activation if it is running, otherwise its receiver gets the message
    escapedBlock: with the block that was running. *)
Definition do_return (call : callee -> list value -> vm -> vout value) (stk : list nat)
  (fid : nat) (v : value) (s : vm) : vout value :=
  let h := home_of s fid in
  if existsb (Nat.eqb h) stk then Abrupt (XRet h v) s
  else match receiver (v_frames s) h, receiver (v_frames s) fid with
       | Some r, Some blk =>
           match self_of (v_store s) (v_frames s) (length (v_frames s)) r with
           | Some self => vm_send2 P call t_escaped self blk s
           | None => Hang
           end
       | _, _ => Hang
       end.
(** An activation answers what its code answers, or what is returned to it; a return to
    another activation goes on. *)
Definition activation (body : nat -> vm -> vout value) (mid : nat) (args : list value)
  (outer : option nat) (s : vm) : vout value :=
  let fid := length (v_frames s) in
  match body fid (push_frame mid args outer s) with
  | Done v s | Retn v s => Done v s
  | Abrupt (XRet h v) s => if h =? fid then Done v s else Abrupt (XRet h v) s
  | Abrupt (XPy e) s => Abrupt (XPy e) s
  | Hang => Hang
  | Stuck => Stuck
  end.
(** As [call_at], with the running activations [stk] at hand: no marks, no catching. *)
Fixpoint spec_at (n : nat) (stk : list nat) (c : callee) (blk : option (nat * nat)) (args : list value)
  (s : vm) {struct n} : vout value :=
  match n with
  | O => Hang
  | S n =>
      let fid := length (v_frames s) in
      match c with
      | CPrim p =>
          run_act P (fun c args s => spec_at n stk c None args s)
                    (fun m l o args s => spec_at n stk (CMeth m) (Some (l, o)) args s)
                    n (p_prim P p args) s
      | CMeth m =>
          let call c args s := spec_at n (fid :: stk) c None args s in
          activation
            (fun fid => p_body P m (option_map fst blk)
               (vm_machine P call (fun fid _ v s => do_return call (fid :: stk) fid v s) m fid) n)
            m args (option_map snd blk) s
      end
  end.
End Spec.
Definition spec (P : prog) (n : nat) (c : callee) (args : list value) (s : vm) : vout value :=
  spec_at P n [] c None args s.

(** * Which programs are considered *)
(** Primitives do not make or change blocks. *)
Definition same_blocks (st st' : store) : Prop :=
  forall a m l o, nth_error (s_objs st) a = Some (OBlk m l o) <-> nth_error (s_objs st') a = Some (OBlk m l o).
Inductive honest : act -> Prop :=
| H_ret v : honest (ARet v)
| H_err e : honest (AErr e)
| H_store f k : (forall st, same_blocks st (f st)) -> (forall st, honest (k st)) -> honest (AStore f k)
| H_send sel args k : (forall v, honest (k v)) -> honest (ASend sel args k)
| H_invoke c args k : (forall v, honest (k v)) -> honest (AInvoke c args k)
| H_eval b args k : (forall v, honest (k v)) -> honest (AEval b args k)
| H_while c b on k : honest k -> honest (AWhile c b on k).
Definition honest_prog (P : prog) : Prop :=
  (forall p args, honest (p_prim P p args)) /\
  (forall sel args st, same_blocks st (snd (p_dnu P sel args st))).

(** Does a block in the expression end with [^]? *)
Fixpoint rets (e : src) : bool :=
  match e with
  | SVar _ | SLit _ => false
  | SSend _ r _ args => rets r || existsb rets args
  | SInc e | SDec e | SAsgn _ e => rets e
  | SBlk _ _ _ ss ret _ => existsb rets ss || match ret with Some e => true | None => false end
  end.

Definition returns_from_blocks (m : msrc) : bool :=
  existsb rets (ms_body m) || match ms_ret m with Some e => rets e | None => false end.
(** The sources are as in C43, and the block literals of a method have different numbers. *)
Definition ok_method (m : msrc) : Prop :=
  forallb ok_src (ms_body m) = true /\ ok_ret (ms_ret m) = true /\
  NoDup (map (fun p => label_of (fst p)) (ms_blocks m)).
(** The methods that catch returns are at least those in which a block ends with [^]. *)
Definition ok_prog (M : nat -> option msrc) (P : prog) : Prop :=
  p_body P = source_body M /\ honest_prog P /\
  forall mid m, M mid = Some m -> ok_method m /\ (returns_from_blocks m = true -> p_catch P mid = true).
(** No block exists before the program starts. *)
Definition no_blocks (st : store) : Prop := forall a m l o, nth_error (s_objs st) a <> Some (OBlk m l o).
(** What can be seen of a run: how it ends, what it answers, objects, globals and output. *)
Definition seen (o : vout value) : out store stop value :=
  match o with
  | Done v s => Done v (v_store s)
  | Retn v s => Retn v (v_store s)
  | Abrupt x s => Abrupt x (v_store s)
  | Hang => Hang
  | Stuck => Stuck
  end.
