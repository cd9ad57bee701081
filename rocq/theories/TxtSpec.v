(** Specification for symbols, globals and strings. *)
From Coq Require Import ZArith Bool String Ascii List Floats.SpecFloat.
From Verif Require Import Base TxtModel.
Import ListNotations.
Open Scope Z_scope.
Open Scope list_scope.

(** Selector spelling. *)
Definition chars := list_ascii_of_string.
Definition operator_chars : list ascii := chars "~&|*/@+-=><,%\".
Definition spelled_with_operators (s : string) : Prop := forall c, In c (chars s) -> In c operator_chars.
Definition colons (s : string) : nat := count_occ ascii_dec (chars s) ":"%char.

(** Symbol histories: the identities answered by a sequence of requests. *)
Fixpoint intern (t : symtab) (names : list string) : list nat * symtab :=
  match names with
  | [] => ([], t)
  | n :: r => let (i, t') := symbol_for t n in let (is, t'') := intern t' r in (i :: is, t'')
  end.

(** Global histories.  [GLoad n found]: a class load of [n] for which the class path has
    [found]; [GHas], [GGet]: hasGlobal: and global: are sent. *)
Inductive gop :=
| GPut (n : string) (v : value)
| GLoad (n : string) (found : option value)
| GHas (n : string) | GGet (n : string)
| GSite (i : nat).             (* read site number i executes *)

(** The value a name has: the last one assigned; loading gives a value to a name that
    has none. *)
Fixpoint value_of (n : string) (cur : option value) (ops : list gop) : option value :=
  match ops with
  | [] => cur
  | GPut n' v :: t => value_of n (if String.eqb n' n then Some v else cur) t
  | GLoad n' found :: t =>
      value_of n (if String.eqb n' n then match cur with Some v => Some v | None => found end else cur) t
  | _ :: t => value_of n cur t
  end.
(** A load of [n] failed. *)
Definition load_failed (n : string) (ops : list gop) : Prop :=
  exists pre post, ops = pre ++ GLoad n None :: post /\ value_of n None pre = None.

(** Running a history with a list of AST read sites (name and node). *)
Definition gstate := (globals * list (string * gnode))%type.
Definition gexec (st : gstate) (op : gop) : gstate :=
  let (g, sites) := st in
  match op with
  | GPut n v => (snd (prim_global_put g n v), sites)
  | GLoad n found => (snd (prim_load g n found), sites)
  | GHas _ | GGet _ => st
  | GSite i =>
      match nth_error sites i with
      | Some (n, s) => let '(_, s', g') := ast_global_read g n s in (g', set_nth sites i (n, s'))
      | None => st
      end
  end.
(** Sites are created (compiled) at arbitrary points: the history is a list of steps,
    each an operation or the creation of a read site for a name. *)
Inductive gstep := Do (op : gop) | Compile (n : string).
Fixpoint grun (st : gstate) (l : list gstep) : gstate :=
  match l with
  | [] => st
  | Do op :: t => grun (gexec st op) t
  | Compile n :: t => grun (fst st, snd st ++ [(n, create_global_node (fst st) n)]) t
  end.
Fixpoint ops_of (l : list gstep) : list gop :=
  match l with [] => [] | Do op :: t => op :: ops_of t | Compile _ :: t => ops_of t end.
Definition ginit : gstate := (empty_globals, []).

(** Characters [i] (from 1) to [j] of a text. *)
Definition chars_from_to (s : string) (i j : Z) : list ascii :=
  firstn (Z.to_nat (j - i + 1)) (skipn (Z.to_nat (i - 1)) (chars s)).
