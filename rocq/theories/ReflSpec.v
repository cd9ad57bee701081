(** Specification of reflective access to fields: objects are records of [n] fields
    (FldSpec.v), and field number [i] is the i-th of them, counting from 1. *)
From Coq Require Import ZArith Bool String List.
From Verif Require Import Base NumModel ArrSpec FldModel FldSpec ReflModel.
Import ListNotations.
Open Scope Z_scope.
Open Scope list_scope.

(** What may happen to a population: the operations of methods (new objects, assignments to
    fields, increments, messages), and the reflective messages. *)
Inductive rop :=
| RField (op : fop)
| RAt (k : nat) (i : Z)                 (* object k: instVarAt: i *)
| RAtPut (k : nat) (i : Z) (v : value)  (* object k: instVarAt: i put: v *)
| RNamed (k : nat) (name : string)      (* object k: instVarNamed: #name *).

Definition rspec_step (m : mode) (n : nat) (A : records) (op : rop) : records :=
  match op with
  | RField op => fspec_step m n A op
  | RAtPut k i v => put_at A k (put_at (nth k A []) (Z.to_nat (i - 1)) v)
  | RAt _ _ | RNamed _ _ => A
  end.
Fixpoint rspec_run (m : mode) (n : nat) (A : records) (ops : list rop) : records :=
  match ops with [] => A | op :: t => rspec_run m n (rspec_step m n A op) t end.

(** Operations on existing objects, and on fields that exist. *)
Definition rvalid (names : list string) (count : nat) (op : rop) : Prop :=
  match op with
  | RField op => fvalid (length names) count op
  | RAt k i | RAtPut k i _ => (k < count)%nat /\ 1 <= i <= Z.of_nat (length names)
  | RNamed k name => (k < count)%nat /\ In name names
  end.
Fixpoint rvalid_history (names : list string) (count : nat) (ops : list rop) : Prop :=
  match ops with
  | [] => True
  | op :: t => rvalid names count op
               /\ rvalid_history names (match op with RField FNew => S count | _ => count end) t
  end.
Definition created (ops : list rop) : nat :=
  length (filter (fun op => match op with RField FNew => true | _ => false end) ops).

(** At most 32 of the fields are ever assigned Integers or Doubles. *)
Definition at_most_32_numeric (ops : list rop) : Prop :=
  exists numeric : list nat, (length numeric <= 32)%nat /\
    (forall k i v, In (RField (FSet k i v)) ops -> word_sized v -> In i numeric) /\
    (forall k i v, In (RAtPut k i v) ops -> word_sized v -> In (Z.to_nat (i - 1)) numeric).

(** The same executed by the model. *)
Definition rexec (m : mode) (fuel : nat) (names : list string) (w : world) (op : rop) : res world :=
  match op with
  | RField op => fexec m fuel w op
  | RAt k i => r <- w_at fuel w k (VInt i) ;; Ok (snd r)
  | RAtPut k i v => r <- w_at_put fuel w k (VInt i) v ;; Ok (snd r)
  | RNamed k name => r <- w_named fuel names w k (VSym name) ;; Ok (snd r)
  end.
Fixpoint rrun (m : mode) (fuel : nat) (names : list string) (w : world) (ops : list rop) : res world :=
  match ops with
  | [] => Ok w
  | op :: t => w' <- rexec m fuel names w op ;; rrun m fuel names w' t
  end.

(** Every field of every object reads as in the records. *)
Definition shows (n : nat) (w : world) (A : records) : Prop :=
  forall k i, (k < length A)%nat -> (i < n)%nat -> w_get w k i = Ok (field A k i).

(** How many fields of the objects of the class have been assigned something that is neither
    nil nor always an Integer nor always a Double: counted from the layout the class has. *)
Definition reference_fields (w : world) : nat :=
  length (filter (fun t => match t with Some TObj => true | _ => false end) (cur_layout (w_cls w))).
