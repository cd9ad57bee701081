(** Whole programs on which the two interpreters do not differ: a program is run by the rules
    they share, and gets stuck where they do not do the same. *)
From Coq Require Import ZArith Bool String Ascii List Lia.
From Verif Require Import Base LexModel ParseModel BcModel BcInterp BcSpec BcTab VmModel VmSpec VmCode AstModel AstSpec AstVm.
Import ListNotations.
Open Scope nat_scope.
Open Scope list_scope.

Section Care.
Variable P : prog.
Variable call : callee -> list value -> vm -> vout value.
(** A global that is not there when the method is compiled: its value if it is there now.
    Otherwise unknownGlobal: goes to self.  Stuck if the AST interpreter, which looks [k]
    levels out, finds no self there or a block, as when the level is wrong. *)
Definition care_unknown (fid k : nat) (n : text) (s : vm) : vout value :=
  match assoc_glob n (s_globs (v_store s)) with
  | Some v => Done v s
  | None =>
      match receiver (v_frames s) fid, self_dynamically s fid with
      | Some r, Some _ =>
          match outer_self (v_store s) (v_frames s) k r with
          | Some self => match the_block (v_store s) self with
                         | None => vm_send2 P call t_unknown self (sym_value n) s
                         | Some _ => Stuck
                         end
          | None => Stuck
          end
      | _, _ => Stuck
      end
  end.
(** [^ v] in a block, the activations [stk] running.  Stuck if the home activation is not
    running and escapedBlock: has an answer, or would go to a block. *)
Definition care_return (stk : list nat) (fid : nat) (v : value) (s : vm) : vout value :=
  let h := home_of s fid in
  if existsb (Nat.eqb h) stk then Abrupt (XRet h v) s
  else match receiver (v_frames s) h, receiver (v_frames s) fid with
       | Some self, Some blk =>
           match the_block (v_store s) self with
           | None => match vm_send2 P call t_escaped self blk s with
                     | Done _ _ | Retn _ _ => Stuck
                     | o => o
                     end
           | Some _ => Stuck
           end
       | _, _ => Stuck
       end.
(** Also stuck: a super send without a method; a global gone that was there when the method
    was compiled; [x - 1] and [x + (1)] for [x] other than an Integer or a Double; a literal
    array; a condition that is not a Boolean. *)
Definition care_ops (stk : list nat) (mid fid : nat) : ops vm stop := {|
  o_send := vm_send P call;
  o_ready := fun t s => match p_super P mid t (v_store s) with Some _ => Done tt s | None => Stuck end;
  o_super := vm_super P call mid;
  o_glob := fun n s => match assoc_glob n (s_globs (v_store s)) with Some v => Done v s | None => Stuck end;
  o_unk := fun k _ => care_unknown fid k;
  o_blk := vm_blk fid; o_rd := vm_rd fid; o_wr := vm_wr fid; o_getf := vm_getf fid; o_setf := vm_setf fid;
  o_inc := vm_inc P;
  o_dec := fun v s => if small v then vm_dec P v s else Stuck;
  o_plus := fun v s => if small v then vm_inc P v s else Stuck;
  o_arr := fun _ _ => Stuck;
  o_test := fun _ k v s => if decided k v then Done (takes k v) s else Stuck;
  o_home := fun _ => care_return stk fid;
  o_rev := false |}.
End Care.

(** The bodies of methods and blocks, with given operations. *)
Definition obody (D : nat -> option mdef) (mid : nat) (blk : option nat) (o : ops vm stop) (n : nat) (s : vm) : vout value :=
  match D mid, blk with
  | Some d, None => oeval_method (md_env d) o (ms_body (md_src d)) (ms_ret (md_src d)) (ms_env (md_src d)) n s
  | Some d, Some l => match block_of (md_src d) l with
                      | Some (b, rho) => oeval_closure (md_env d) o b rho n s
                      | None => Stuck
                      end
  | None, _ => Stuck
  end.
(** As [spec_at] and [aspec_at], for given bodies. *)
Definition body_run := (callee -> list value -> vm -> vout value) -> list nat -> nat -> option nat -> nat -> nat -> vm -> vout value.
Section Run.
Variable P : prog.
Variable B : body_run.
Fixpoint grun (n : nat) (stk : list nat) (c : callee) (blk : option (nat * nat)) (args : list value) (s : vm) {struct n} : vout value :=
  match n with
  | O => Hang
  | S n =>
      let fid := length (v_frames s) in
      match c with
      | CPrim p =>
          run_act P (fun c args s => grun n stk c None args s)
                    (fun m l o args s => grun n stk (CMeth m) (Some (l, o)) args s)
                    n (p_prim P p args) s
      | CMeth m =>
          let call c args s := grun n (fid :: stk) c None args s in
          activation (fun fid => B call (fid :: stk) m (option_map fst blk) fid n) m args (option_map snd blk) s
      end
  end.
End Run.
Definition care_body (D : nat -> option mdef) (P : prog) : body_run :=
  fun call stk mid blk fid => obody D mid blk (care_ops P call stk mid fid).
(** The program run with care. *)
Definition care (D : nat -> option mdef) (P : prog) (n : nat) (c : callee) (args : list value) (s : vm) : vout value :=
  grun P (care_body D P) n [] c None args s.

(** What is asked of a program: Integers and Doubles add and subtract 1 by primitives, which
    do what the increment and decrement of the interpreters do; variables are assigned one at
    a time. *)
Definition number_message (P : prog) (t : text) (f : value -> res value) : Prop :=
  forall v st, small v = true ->
  exists p, p_find P t v st = Some (CPrim p) /\
    p_prim P p [v; VInt 1] = match f v with Ok w => ARet w | Err e => AErr e end.
Definition number_messages (P : prog) : Prop :=
  number_message P t_plus (p_inc P) /\ number_message P t_minus (p_dec P).
Definition single_method (m : msrc) : bool := forallb single (ms_body m) && single_ret (ms_ret m).
