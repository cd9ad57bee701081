(** Invoking trivial methods.  som/vmobjects/method_trivial.py: methods the compiler replaced by
    an object that answers a literal, reads a global or a field, or stores an argument in a
    field, without an activation. *)
From Coq Require Import ZArith Bool String Ascii List Lia.
From Verif Require Import Base LexModel ParseModel BcModel BcInterp VmModel.
Import ListNotations.
Open Scope nat_scope.
Open Scope list_scope.

(** determine_outer_self (method_trivial.py 15-20): the receiver of the context of a block, as
    many times as there are contexts; get_from_outer (block_bc.py 28-34) is only there for
    blocks. *)
Fixpoint outer_self (s : vm) (k : nat) (v : value) : option value :=
  match k with
  | O => Some v
  | S k => match the_block (v_store s) v with
           | Some (_, _, o) => match receiver (v_frames s) o with Some w => outer_self s k w | None => None end
           | None => None
           end
  end.
(** get_field and set_field of an object (vmobjects/object_with_layout.py) *)
Definition obj_fields {A} (o : value) (s : vm) (f : nat -> nat -> list value -> vout A) : vout A :=
  match o with
  | VObj a => match nth_error (s_objs (v_store s)) a with
              | Some (OInst c fl) => f a c fl
              | _ => raise AttributeError s
              end
  | _ => raise AttributeError s
  end.
Definition get_field (o : value) (i : nat) (s : vm) : vout value :=
  obj_fields o s (fun _ _ fl => match nth_error fl i with Some v => Done v s | None => raise IndexError s end).
Definition set_field (o : value) (i : nat) (v : value) (s : vm) : vout unit :=
  obj_fields o s (fun a c fl =>
  if i <? length fl
  then Done tt (set_store (Store (set_at (s_objs (v_store s)) a (OInst c (set_at fl i v)))
                                 (s_globs (v_store s)) (s_out (v_store s))) s)
  else raise IndexError s).

Section Triv.
Variable P : prog.
Variable call : callee -> list value -> vm -> vout value.

(** FieldWrite.invoke_1 (192-195) *)
Definition write_1 (s : vm) : vout value := raise NotImplementedErr s.
(** FieldWrite.invoke_2 (197-199): the argument is the one there is, whatever the index *)
Definition write_2 (f : nat) (r x : value) (s : vm) : vout value :=
  bind (set_field r f x s) (fun _ s => Done r s).
(** FieldWrite.invoke_3 (201-204) *)
Definition write_3 (f a : nat) (r x y : value) (s : vm) : vout value :=
  if a =? 1 then write_2 f r x s else write_2 f r y s.
(** FieldWrite.invoke_n (206-216): [below] is what is under the receiver on the operand stack
    of the sender; the argument is read at [stack_ptr - (num_args - arg_idx)], the receiver at
    [stack_ptr - (num_args - 1)] *)
Definition write_n (f a : nat) (below : value) (args : list value) (s : vm) : vout value :=
  match args, nth_error (below :: args) a with
  | r :: _, Some x => write_2 f r x s
  | _, _ => raise IndexError s
  end.
(** GlobalRead.invoke_1, invoke_2, invoke_3 (95-113).  The association GlobalRead keeps (96-101)
    is that of the global, which is never removed (vm/universe.py 389-395). *)
Definition glob_1 (n : text) (k : nat) (r : value) (s : vm) : vout value :=
  match assoc_glob n (s_globs (v_store s)) with
  | Some v => Done v s
  | None => match outer_self s k r with
            | Some self => vm_send2 P call t_unknown self (sym_value n) s
            | None => raise AttributeError s
            end
  end.
(** GlobalRead.invoke_n (115-124): the value is determined, then
    stack_pop_old_arguments_and_push_result (bc/frame.py 168) is called with an argument too
    many. *)
Definition glob_n (n : text) (k : nat) (r : value) (s : vm) : vout value :=
  bind (glob_1 n k r s) (fun _ s => raise TypeError s).
(** invoke_1, invoke_2, invoke_3, invoke_n of LiteralReturn (54-69), GlobalRead,
    FieldRead (147-169) and FieldWrite. *)
Definition triv_invoke (t : triv) (args : list value) (below : value) (s : vm) : vout value :=
  match args with
  | [] => Stuck
  | r :: rest =>
      match t with
      | TLit l => match lit_value l with Some v => Done v s | None => Stuck end
      | TGlob n k => if length args <=? 3 then glob_1 n k r s else glob_n n k r s
      | TFld i k => match outer_self s k r with
                    | Some o => get_field o i s
                    | None => raise AttributeError s
                    end
      | TFldW f a => match rest with
                     | [] => write_1 s
                     | [x] => write_2 f r x s
                     | [x; y] => write_3 f a r x y s
                     | _ => write_n f a below args s
                     end
      end
  end.
(** A trivial method has no activation; the activations of the model are numbered in their
    order, so here, too, a number is taken. *)
Definition invoke_trivial (t : triv) (mid : nat) (args : list value) (outer : option nat) (below : value)
  (s : vm) : vout value := triv_invoke t args below (push_frame mid args outer s).
End Triv.

(** * When the receivers of the contexts are found through blocks *)
(** Activation [fid] and the [k] ones around it: the receiver of each is the block it is an
    activation of, whose context is the activation around it, created before. *)
Fixpoint linked (s : vm) (k fid : nat) : Prop :=
  match k with
  | O => True
  | S k => exists f b m l o, nth_error (v_frames s) fid = Some f /\ f_outer f = Some o /\
             nth_error (f_args f) 0 = Some b /\ the_block (v_store s) b = Some (m, l, o) /\ o < fid /\ linked s k o
  end.
(** The receiver of the method the activation [fid], [k] blocks deep, belongs to. *)
Definition home_receiver (s : vm) (k fid : nat) : option value :=
  match up (v_frames s) k fid with Some h => receiver (v_frames s) h | None => None end.
(** When a trivial method can be invoked in its arguments and state: a setter has one or two
    arguments and does not store its receiver; a field is read of the receiver of the method;
    an unknown global is reported to the receiver of the method if that is no block, and a
    method that reads a global has at most two arguments. *)
Definition proper (t : triv) (args : list value) (s : vm) (fid : nat) : Prop :=
  match t with
  | TLit _ => True
  | TGlob n k => length args <= 3 /\ (assoc_glob n (s_globs (v_store s)) <> None \/
                 (linked s k fid /\ exists r, home_receiver s k fid = Some r /\ the_block (v_store s) r = None))
  | TFld _ k => linked s k fid /\ home_receiver s k fid <> None
  | TFldW _ a => 1 <= a < length args /\ length args <= 3
  end.
(** Calls answer or stop; they do not return from their sender. *)
Definition answers (call : callee -> list value -> vm -> vout value) : Prop :=
  forall c args s v s', call c args s <> Retn v s'.
