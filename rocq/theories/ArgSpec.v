(** Specification for the command line. *)
From Coq Require Import ZArith Bool String Ascii List.
From Verif Require Import Base ArgModel.
Import ListNotations.
Open Scope list_scope.
Open Scope string_scope.

(** Options and how they are written. *)
Inductive opt := OCp (directories : string) | ODump | ONoGc.
Definition written (o : opt) : list string :=
  match o with OCp d => ["-cp"; d] | ODump => ["-d"] | ONoGc => ["--no-gc"] end.
Definition help_words : list string := ["-h"; "--help"; "-?"].
Definition option_words : list string := (["-cp"; "-d"; "--no-gc"] ++ help_words)%list.

(** The class path meant by the options: that of the last -cp, or the current directory. *)
Definition no_char (c : ascii) (s : string) : Prop := ~ In c (list_ascii_of_string s).
Definition directories_of (s : string) (dirs : list string) : Prop :=
  dirs <> [] /\ String.concat ":" dirs = s /\ Forall (no_char ":") dirs.
Definition meant_classpath (os : list opt) (dirs : list string) : Prop :=
  (exists pre s post, os = (pre ++ OCp s :: post)%list /\ (forall s', ~ In (OCp s') post) /\ directories_of s dirs)
  \/ ((forall s, ~ In (OCp s) os) /\ dirs = ["."]).

(** The parts of a program path: directory and class name. *)
Definition dir_and_file (p dir file : string) : Prop :=
  (no_char "/" p /\ dir = "" /\ file = p) \/ (p = dir ++ "/" ++ file /\ no_char "/" file).
Definition class_name_of (file name : string) : Prop :=
  (no_char "." file /\ name = file) \/ (exists ext, file = name ++ "." ++ ext /\ no_char "." ext).
