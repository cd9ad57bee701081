(** What a call with the wrong number of arguments should and does do, in terms of right calls. *)
From Coq Require Import List.
From Verif Require Import Base FrameModel FrameSpec ArityModel.
Import ListNotations.
Local Open Scope nat_scope.

(** The number of parameters of the method or block. *)
Definition parameters (s : scope) : nat := length (sc_args s).

(** The body runs just as if it had been called with [instead]: in the frame every right call with
    [instead] makes. *)
Definition ast_runs_as (s : scope) (rcvr : value) (given instead : list value) : Prop :=
  length instead = parameters s /\
  exists f, ast_perform s rcvr given = Ok f /\
    forall e, ast_accepts e (length instead) -> ast_enter e (prepare_frame s) rcvr instead = Ok f.
Definition bc_runs_as (s : scope) (rcvr : value) (given instead : list value) : Prop :=
  length instead = parameters s /\
  exists f, bc_perform s rcvr given = Ok f /\
    forall e, bc_accepts e (length instead) -> bc_enter e (prepare_frame s) rcvr instead = Ok f.

(** The body runs just as if it had been called with [instead] and had begun with these assignments. *)
Definition ast_runs_after (s : scope) (rcvr : value) (given instead : list value) (l : list (variable * value)) : Prop :=
  length instead = parameters s /\
  exists f0 f, ast_perform s rcvr given = Ok f /\
    (forall e, ast_accepts e (length instead) -> ast_enter e (prepare_frame s) rcvr instead = Ok f0) /\
    assign_all (ast_place s) ast_write f0 l = Ok f.
Definition bc_runs_after (s : scope) (rcvr : value) (given instead : list value) (l : list (variable * value)) : Prop :=
  length instead = parameters s /\
  exists f0 f, bc_perform s rcvr given = Ok f /\
    (forall e, bc_accepts e (length instead) -> bc_enter e (prepare_frame s) rcvr instead = Ok f0) /\
    assign_all (place s) bc_write f0 l = Ok f.

(** The call is refused; the body does not run. *)
Definition refused (e : exn) (s : scope) (rcvr : value) (given : list value) : Prop :=
  ast_perform s rcvr given = Err e /\ bc_perform s rcvr given = Err e.

(** n nils, with v in position i. *)
Fixpoint with_at {A} (i : nat) (v : A) (l : list A) : list A :=
  match l, i with
  | [], _ => []
  | _ :: t, 0 => v :: t
  | h :: t, S j => h :: with_at j v t
  end.
Definition nils (n : nat) : list value := repeat VNil n.

(** No nested block uses a variable, self or a return of the method. *)
Definition self_contained (s : scope) : Prop :=
  sc_requires_context s = false /\ sc_catches s = false /\ forall x, declared s x -> ~ used_by_nested_block s x.

(** i is the first parameter that nested blocks use if they use parameter k, and do not use if
    they do not use k; [but] is left out of the count. *)
Definition first_like (s : scope) (k : nat) (but : nat -> Prop) (i : nat) : Prop :=
  i < parameters s /\ ~ but i /\ (used_by_nested_block s (Arg i) <-> used_by_nested_block s (Arg k)) /\
  forall j, j < i -> ~ but j -> ~ (used_by_nested_block s (Arg j) <-> used_by_nested_block s (Arg k)).
