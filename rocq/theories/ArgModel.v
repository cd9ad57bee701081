(** Command line handling, class search and the shell's line reader. *)
From Coq Require Import ZArith Bool String Ascii List.
From Verif Require Import Base.
Import ListNotations.
Open Scope list_scope.
Open Scope string_scope.

(** str.split(sep) with a one-character separator. *)
Fixpoint split_on (c : ascii) (s : string) : list string :=
  match s with
  | EmptyString => [""]
  | String a t =>
      if Ascii.eqb a c then "" :: split_on c t
      else match split_on c t with
           | p :: r => String a p :: r
           | [] => [String a ""]
           end
  end.
(** str.rsplit(sep, 1): [None] if the separator does not occur (a one-element list). *)
Fixpoint rsplit1 (c : ascii) (s : string) : option (string * string) :=
  match s with
  | EmptyString => None
  | String a t =>
      match rsplit1 c t with
      | Some (x, y) => Some (String a x, y)
      | None => if Ascii.eqb a c then Some ("", t) else None
      end
  end.

(** rlib/osext.py 6-22 with os.sep = "/". *)
Definition path_split (path : string) : string * string * string :=
  let (dir, file) := match rsplit1 "/" path with Some (x, y) => (x, y) | None => ("", path) end in
  match rsplit1 "." file with
  | Some (n, e) => (dir, n, e)
  | None => (dir, file, "")
  end.

(** What handle_arguments does to the universe. *)
Inductive aout :=
| AExit                                    (* Exit is raised after printing the usage *)
| ACrash (e : exn)
| ARun (classpath : list string) (dump : bool) (args : list string).

(** The loop's variables: class path, dump flag, remaining_args, saw_others. *)
Record acc := { a_cp : option (list string); a_dump : bool; a_rest : list string; a_others : bool }.
Definition with_cp a s := {| a_cp := Some (split_on ":" s); a_dump := a_dump a; a_rest := a_rest a; a_others := a_others a |}.
Definition with_dump a := {| a_cp := a_cp a; a_dump := true; a_rest := a_rest a; a_others := a_others a |}.
Definition with_arg a s := {| a_cp := a_cp a; a_dump := a_dump a; a_rest := a_rest a ++ [s]; a_others := true |}.

(** universe.py 147-168: the loop.  [i] walks over the list.  104-108: with [avoid]
    the universe's exit only records the code and returns. *)
Fixpoint arg_loop (avoid : bool) (args : list string) (a : acc) : aout + acc :=
  match args with
  | [] => inr a
  | x :: t =>
      if String.eqb x "-cp" && negb (a_others a) then
        match t with
        | [] => if avoid then inl (ACrash IndexError) else inl AExit
        | cp :: t' => arg_loop avoid t' (with_cp a cp)
        end
      else if String.eqb x "-d" && negb (a_others a) then arg_loop avoid t (with_dump a)
      else if existsb (String.eqb x) ["-h"; "--help"; "-?"] && negb (a_others a) then
        if avoid then arg_loop avoid t a else inl AExit
      else if String.eqb x "--no-gc" && negb (a_others a) then arg_loop avoid t a
      else arg_loop avoid t (with_arg a x)
  end.

(** universe.py 142-183 and 185-190. *)
Definition handle_arguments (avoid : bool) (args : list string) : aout :=
  match arg_loop avoid args {| a_cp := None; a_dump := false; a_rest := []; a_others := false |} with
  | inl o => o
  | inr a =>
      let cp := match a_cp a with Some cp => cp | None => ["."] end in
      match a_rest a with
      | [] => ARun cp (a_dump a) []
      | p :: rest =>
          let '(dir, file, _) := path_split p in
          ARun (if String.eqb dir "" then cp else dir :: cp) (a_dump a) (file :: rest)
      end
  end.

(** universe.py 451-471 and sourcecode_compiler.py 14-38: the class path entry whose file
    is compiled; [exists_file] says which files can be opened. *)
Fixpoint find_class (exists_file : string -> bool) (classpath : list string) (name : string) : option string :=
  match classpath with
  | [] => None
  | p :: t => let fname := p ++ "/" ++ name ++ ".som" in
              if exists_file fname then Some fname else find_class exists_file t name
  end.

(** rlib/osext.py 25-39: raw_input.  [chunks] are the results of os.read(0, 32), empty at
    the end of the input; decoding is the identity on bytes. *)
Fixpoint ends_with_newline (s : string) : bool :=
  match s with
  | EmptyString => false
  | String c EmptyString => Ascii.eqb c (ascii_of_nat 10)
  | String _ t => ends_with_newline t
  end.
Fixpoint drop_last (s : string) : string :=
  match s with
  | EmptyString => ""
  | String _ EmptyString => ""
  | String c t => String c (drop_last t)
  end.
Fixpoint raw_input (answer : string) (chunks : list string) : string * list string :=
  match chunks with
  | [] => (answer, [])
  | buf :: t =>
      if Nat.eqb (String.length buf) 0 then (answer, t)
      else if ends_with_newline buf then (answer ++ drop_last buf, t)
      else raw_input (answer ++ buf) t
  end.
