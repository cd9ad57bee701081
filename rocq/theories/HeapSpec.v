(** Specification of a priority queue: a bag of entries. *)
From Coq Require Import ZArith List Permutation Sorted.
From Verif Require Import Base HeapModel.
Import ListNotations.
Open Scope Z_scope.
Open Scope list_scope.

Inductive hop := Push (e : entry) | Pop.

(** Running a history on the program: the queue after it and the entries answered. *)
Fixpoint hrun (h : list entry) (ops : list hop) : res (list entry * list entry) :=
  match ops with
  | [] => Ok (h, [])
  | Push e :: t => h' <- heappush h e ;; hrun h' t
  | Pop :: t => r <- heappop h ;; r' <- hrun (snd r) t ;; Ok (fst r', fst r :: snd r')
  end.

(** The same history on a bag, of which [bag] lists the entries in some order: a removal
    answers an entry of the bag with the lowest address and takes that one entry out. *)
Inductive bag_run : list entry -> list hop -> list entry -> list entry -> Prop :=
| BNil bag : bag_run bag [] bag []
| BPush bag e t bag' out : bag_run (e :: bag) t bag' out -> bag_run bag (Push e :: t) bag' out
| BPop bag e rest t bag' out :
    Permutation bag (e :: rest) -> (forall x, In x bag -> fst e <= fst x) ->
    bag_run rest t bag' out -> bag_run bag (Pop :: t) bag' (e :: out).

(** The history never removes from an empty queue. *)
Fixpoint enough (n : nat) (ops : list hop) : Prop :=
  match ops with
  | [] => True
  | Push _ :: t => enough (S n) t
  | Pop :: t => match n with O => False | S k => enough k t end
  end.

Fixpoint pushed (ops : list hop) : list entry :=
  match ops with [] => [] | Push e :: t => e :: pushed t | Pop :: t => pushed t end.
