(** Specification vocabulary for numbers, independent of the model's operations. *)
From Coq Require Import ZArith Bool String List Floats.SpecFloat.
From Verif Require Import Base.
Import ListNotations.
Open Scope Z_scope.

(** The mathematical value of a SOM integer, in either representation. *)
Definition int_val (v : value) : option Z :=
  match v with VInt z | VBig z => Some z | _ => None end.

(** Which run-time representation an integer has. *)
Definition is_word (v : value) : Prop := exists z, v = VInt z.
Definition is_number (v : value) : Prop :=
  match v with VInt _ | VBig _ | VDbl _ => True | _ => False end.

(** The integers that can exist at run time: in the translated VM a machine-word
    integer is between -2^63 and 2^63-1 and arbitrary-precision ones are unrestricted;
    under plain Python only (unbounded) Integer objects are ever created. *)
Definition valid (m : mode) (v : value) : Prop :=
  match m, v with
  | Translated, VInt z => - 2 ^ 63 <= z < 2 ^ 63
  | Hosted, VBig _ => False
  | _, _ => True
  end.

(** Does an exact result need arbitrary precision in this mode? *)
Definition word_sized (m : mode) (z : Z) : Prop :=
  match m with Translated => - 2 ^ 63 <= z < 2 ^ 63 | Hosted => True end.

(** A send answered an integer of mathematical value [z]. *)
Definition answers_int (m : mode) (r : res value) (z : Z) : Prop :=
  exists v, r = Ok v /\ int_val v = Some z /\ valid m v.

(** A send answered the SOM boolean for the proposition [P]. *)
Definition answers_bool (r : res value) (P : Prop) : Prop :=
  (r = Ok VTrue /\ P) \/ (r = Ok VFalse /\ ~ P).

(** A send did not answer anything. *)
Definition fails {A} (r : res A) : Prop := forall v, r <> Ok v.
