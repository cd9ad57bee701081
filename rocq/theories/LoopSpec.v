(** Specification vocabulary for loops: evaluating a block once for each of a list of
    integers, in order, stopping at the first failure. *)
From Coq Require Import ZArith Bool String List.
From Verif Require Import Base.
Import ListNotations.
Open Scope Z_scope.
Open Scope list_scope.

Fixpoint for_each {St} (blk : value -> St -> res St) (is : list Z) (s : St) : res St :=
  match is with
  | [] => Ok s
  | i :: t => s' <- blk (VInt i) s ;; for_each blk t s'
  end.

(** a, a + step, a + 2 step, ... ([n] numbers). *)
Definition progression (a step : Z) (n : nat) : list Z :=
  map (fun k => a + Z.of_nat k * step) (seq 0 n).
