(** Specification of object fields: objects are independent records of [n] fields. *)
From Coq Require Import ZArith Bool String List Floats.SpecFloat.
From Verif Require Import Base NumModel FldModel ArrSpec.
Import ListNotations.
Open Scope Z_scope.
Open Scope list_scope.

(** Object number [k] has the field contents [nth k]. *)
Definition records := list (list value).

Inductive fop :=
| FNew                                  (* a new instance *)
| FSet (k i : nat) (v : value)          (* object k: field i := v *)
| FInc (k i : nat)                      (* object k: field i := field i + 1, in place *)
| FSend (k : nat).                      (* object k receives a message *)

Definition field (A : records) (k i : nat) : value := nth i (nth k A []) VNil.

(** v + 1 by the addition primitive of the number classes. *)
Definition plus_one (m : mode) (v : value) : value :=
  match prim_add m v (VInt 1) with Ok r => r | Err _ => v end.

Definition fspec_step (m : mode) (n : nat) (A : records) (op : fop) : records :=
  match op with
  | FNew => A ++ [repeat VNil n]
  | FSet k i v => put_at A k (put_at (nth k A []) i v)
  | FInc k i => put_at A k (put_at (nth k A []) i (plus_one m (field A k i)))
  | FSend _ => A
  end.
Fixpoint fspec_run (m : mode) (n : nat) (A : records) (ops : list fop) : records :=
  match ops with [] => A | op :: t => fspec_run m n (fspec_step m n A op) t end.

(** Operations on existing objects and declared fields. *)
Definition fvalid (n count : nat) (op : fop) : Prop :=
  match op with
  | FNew => True
  | FSet k i _ | FInc k i => (k < count)%nat /\ (i < n)%nat
  | FSend k => (k < count)%nat
  end.
Fixpoint fvalid_history (n count : nat) (ops : list fop) : Prop :=
  match ops with
  | [] => True
  | op :: t => fvalid n count op
               /\ fvalid_history n (match op with FNew => S count | _ => count end) t
  end.

(** Values kept in the 32-bit bookkeeping word: Integers and Doubles. *)
Definition word_sized (v : value) : Prop :=
  match v with VInt _ | VDbl _ => True | _ => False end.

(** At most 32 of the fields are ever assigned Integers or Doubles. *)
Definition at_most_32_numeric_fields (ops : list fop) : Prop :=
  exists numeric : list nat, (length numeric <= 32)%nat /\
    forall k i v, In (FSet k i v) ops -> word_sized v -> In i numeric.

(** Which of the three kinds of non-nil value: Integer, Double, anything else. *)
Definition same_kind (v w : value) : Prop :=
  match v, w with
  | VInt _, VInt _ | VDbl _, VDbl _ => True
  | VInt _, _ | VDbl _, _ | _, VInt _ | _, VDbl _ => False
  | _, _ => True
  end.
(** Each field only ever receives values of one kind (and nil). *)
Definition one_kind_per_field (ops : list fop) : Prop :=
  forall k i v k' v', In (FSet k i v) ops -> In (FSet k' i v') ops ->
    v <> VNil -> v' <> VNil -> same_kind v v'.

(** The same histories executed by the model. *)
Definition fexec (m : mode) (fuel : nat) (w : world) (op : fop) : res world :=
  match op with
  | FNew => Ok (w_new w)
  | FSet k i v => w_set fuel w k i v
  | FInc k i => r <- w_inc m w k i ;; Ok (snd r)
  | FSend k => w_send fuel w k
  end.
Fixpoint frun (m : mode) (fuel : nat) (w : world) (ops : list fop) : res world :=
  match ops with
  | [] => Ok w
  | op :: t => w' <- fexec m fuel w op ;; frun m fuel w' t
  end.

(** The history assigns [v] to field [i] of some object. *)
Definition assigned (ops : list fop) (i : nat) (v : value) : Prop := exists k, In (FSet k i v) ops.
