(** Specification for primitives. *)
From Coq Require Import String List Arith.
From Verif Require Import Base TxtModel TxtSpec PrmModel.
Import ListNotations.

(** A message with selector [sel] has [n] arguments besides the receiver. *)
Definition takes (sel : string) (n : nat) : Prop :=
  (spelled_with_operators sel /\ n = 1) \/ (~ spelled_with_operators sel /\ n = colons sel).
(** Which class of primitives is made for [n] arguments. *)
Definition suits (s : shape) (n : nat) : Prop :=
  match s with Unary => n = 0 | Binary => n = 1 | Ternary => n = 2 | Nary => 3 <= n end.
