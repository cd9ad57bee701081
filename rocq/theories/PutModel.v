(** Programs that bind globals themselves: system global:put:, added to the requests of ClsModel. *)
From Coq Require Import List.
From Verif Require Import Base LexModel ParseModel ClsModel.
Import ListNotations.

Section Actions.
Variable M : Type.
Variable sel : M -> text.
Variable is_prim : M -> bool.
Variable known : text -> option (list (bool * text)).
Variable avoid : bool.
Variable path : list (text -> option (file M)).

(** A request as in ClsModel, or global: n put: v (primitives/system_primitives.py 33-35). *)
Inductive action := Ask (q : request M) | Put (n : text) (v : gval).
(** _global_put (system_primitives.py 33-35) sets the global (universe.py 382-383) and answers the value. *)
Definition act (fuel meta : nat) (a : action) (u : univ M) : res (option gval) * univ M :=
  match a with
  | Ask q => serve M sel is_prim known avoid path fuel meta q u
  | Put n v => (Ok (Some v), snd (set_glob M n (Some v) u))
  end.
(** A history of actions, as [run] (ClsModel); here only the universe after it. *)
Fixpoint acts (fuel meta : nat) (l : list action) (u : univ M) : univ M :=
  match l with
  | [] => u
  | a :: r => acts fuel meta r (snd (act fuel meta a u))
  end.
End Actions.
