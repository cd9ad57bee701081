(** Specification of arrays: a collection of independent fixed-length sequences of
    values.  Mentions nothing of the strategies; the model is used only at the end, to
    say which primitive each operation stands for. *)
From Coq Require Import ZArith Bool String List Floats.SpecFloat.
From Verif Require Import Base NumModel ArrModel.
Import ListNotations.
Open Scope Z_scope.
Open Scope list_scope.

(** Array number [a] holds the sequence [nth a]. *)
Definition arrays := list (list value).

(** Replace position [k]. *)
Definition put_at {A} (l : list A) (k : nat) (x : A) : list A :=
  firstn k l ++ match skipn k l with [] => [] | _ :: t => x :: t end.

Inductive aop :=
| ONew (n : nat)                              (* Array new: n *)
| OAtPut (a : nat) (i : Z) (v : value)        (* a at: i put: v *)
| OPutAll (a : nat) (v : value)               (* a putAll: v, v not a block *)
| OPutAllBlock (a : nat) (vs : list value)    (* a putAll: block answering vs in turn *)
| OCopy (a : nat)                             (* a copy *)
| OExtend (a : nat) (v : value)               (* copy with one more element *)
| OValues (vs : list value)                   (* array built from given elements *)
| OInts (zs : list Z)                         (* the array of a to: b *)
| OObjects (vs : list value).                 (* array of objects, no specialisation *)

Definition elements (A : arrays) (a : nat) : list value := nth a A [].

Definition spec_step (A : arrays) (op : aop) : arrays :=
  match op with
  | ONew n => A ++ [repeat VNil n]
  | OAtPut a i v => put_at A a (put_at (elements A a) (Z.to_nat (i - 1)) v)
  | OPutAll a v => put_at A a (repeat v (length (elements A a)))
  | OPutAllBlock a vs => put_at A a vs
  | OCopy a => A ++ [elements A a]
  | OExtend a v => A ++ [elements A a ++ [v]]
  | OValues vs => A ++ [vs]
  | OInts zs => A ++ [map VInt zs]
  | OObjects vs => A ++ [vs]
  end.

Fixpoint spec_run (A : arrays) (ops : list aop) : arrays :=
  match ops with [] => A | op :: t => spec_run (spec_step A op) t end.

Definition is_int v := match v with VInt _ => true | _ => false end.
Definition is_dbl v := match v with VDbl _ => true | _ => false end.
Definition is_boolean v := match v with VTrue | VFalse => true | _ => false end.
Definition isnil v := match v with VNil => true | _ => false end.

(** The sequences of block results that putAll: stores faithfully (C15): a block whose
    first result is an Integer (Double) must keep answering Integers (Doubles), and its
    first result must not be a boolean. *)
Definition uniform_results (vs : list value) : bool :=
  match vs with
  | [] => true
  | v :: _ => if is_int v then forallb is_int vs
              else if is_dbl v then forallb is_dbl vs
              else negb (is_boolean v)
  end.

(** The element sequences from which an array is built faithfully (C17): nil must not
    be mixed with elements that are all Integers, all Doubles or all booleans. *)
Definition no_nil_mix (vs : list value) : bool :=
  let non_nil := filter (fun v => negb (isnil v)) vs in
  match non_nil with
  | [] => true
  | _ => forallb (fun v => negb (isnil v)) vs
         || negb (forallb is_int non_nil || forallb is_dbl non_nil || forallb is_boolean non_nil)
  end.

(** Operations that refer to existing arrays and valid indices. *)
Definition valid_op (A : arrays) (op : aop) : Prop :=
  match op with
  | ONew _ | OInts _ | OObjects _ => True
  | OAtPut a i _ => (a < length A)%nat /\ 1 <= i <= Z.of_nat (length (elements A a))
  | OPutAll a _ | OCopy a | OExtend a _ => (a < length A)%nat
  | OPutAllBlock a vs => (a < length A)%nat /\ length vs = length (elements A a)
                         /\ uniform_results vs = true
  | OValues vs => no_nil_mix vs = true
  end.

Fixpoint valid_history (A : arrays) (ops : list aop) : Prop :=
  match ops with
  | [] => True
  | op :: t => valid_op A op /\ valid_history (spec_step A op) t
  end.

(** When storing / appending [v] is accepted, as a condition on the elements only. *)
Definition store_accepted (es : list value) (v : value) : Prop :=
  (forallb is_dbl es = true -> is_dbl v = true) /\
  (forallb is_boolean es = true -> is_boolean v = true).

(** The operations that write into array [x]. *)
Definition writes (op : aop) (x : nat) : Prop :=
  match op with
  | OAtPut a _ _ | OPutAll a _ | OPutAllBlock a _ => a = x
  | _ => False
  end.

(** [n] evaluations of a block in order: the results and the final state, or the
    failure of one of the evaluations. *)
Fixpoint collect {St} (blk : St -> res (value * St)) (n : nat) (s : St)
  : res (list value * St) :=
  match n with
  | O => Ok ([], s)
  | S k => p <- blk s ;; q <- collect blk k (snd p) ;; Ok (fst p :: fst q, snd q)
  end.

(** * The same histories executed by the primitives of the model *)
(** A block that answers the given values in turn. *)
Definition pop_block (s : aheap * list value) : res (value * (aheap * list value)) :=
  match snd s with
  | [] => Err OutOfFuel
  | v :: t => Ok (v, (fst s, t))
  end.

Definition exec (m : mode) (h : aheap) (op : aop) : res aheap :=
  match op with
  | ONew n => r <- prim_new h (VInt (Z.of_nat n)) ;; Ok (fst r)
  | OAtPut a i v => prim_at_put m h a (VInt i) v
  | OPutAll a v => prim_put_all h a v
  | OPutAllBlock a vs =>
      r <- prim_put_all_block fst (fun s h => (h, snd s)) a pop_block (h, vs) ;; Ok (fst r)
  | OCopy a => r <- prim_copy h a ;; Ok (fst r)
  | OExtend a v => r <- array_copy_and_extend m h a v ;; Ok (fst r)
  | OValues vs => st <- from_values vs ;; Ok (fst (alloc h st))
  | OInts zs => Ok (fst (alloc h (from_integers zs)))
  | OObjects vs => Ok (fst (alloc h (from_objects vs)))
  end.

Fixpoint run (m : mode) (h : aheap) (ops : list aop) : res aheap :=
  match ops with
  | [] => Ok h
  | op :: t => h' <- exec m h op ;; run m h' t
  end.
