(** What the report of a syntax error should say. *)
From Coq Require Import ZArith String Ascii List.
From Verif Require Import Base LexModel LexSpec NtxModel ErrModel.
Import ListNotations.
Open Scope nat_scope.
Open Scope list_scope.

(** What the parsers complain about. *)
Inductive complaint :=
| Unexpected (expected : sym) | UnexpectedNoneOf (l : list sym) | NoSuperClass (name : text)
| BadDouble (expected : sym) | BadInteger | BadAssignment | PseudoVariable (name : text)
| ArgumentTwice (name : text) | LocalTwice (name : text) | JumpTooFar (bytecode : text) (offset : Z).

(** The error raised for it. *)
Definition raised (k : complaint) (p : parser) : parse_error :=
  match k with
  | Unexpected s => err_expect s p | UnexpectedNoneOf l => err_expect_one_of l p
  | NoSuperClass n => err_super_class n p | BadDouble s => err_double s p | BadInteger => err_integer p
  | BadAssignment => err_assignment p | PseudoVariable n => err_pseudo n p
  | ArgumentTwice n => err_argument n p | LocalTwice n => err_local n p | JumpTooFar b o => err_jump b o p
  end.

(** The token found, with its text where the name of the kind does not tell it. *)
Definition token_text (k : sym) (t : text) : text :=
  match k with
  | Integer | Double | STString | Identifier | Keyword | KeywordSequence | OperatorSequence =>
      symbol_as_str k ++ chars " (" ++ t ++ chars ")"
  | _ => symbol_as_str k
  end.
Definition commas (l : list sym) : text :=
  match l with
  | [] => []
  | s :: l => symbol_as_str s ++ flat_map (fun s => chars ", " ++ symbol_as_str s) l
  end.
(** What is said about it, when the current token is [t] of kind [k]. *)
Definition says (c : complaint) (k : sym) (t : text) : text :=
  match c with
  | Unexpected s => chars "Unexpected symbol. Expected " ++ symbol_as_str s ++ chars ", but found " ++ token_text k t
  | UnexpectedNoneOf l => chars "Unexpected symbol. Expected one of " ++ commas l ++ chars ", but found " ++ token_text k t
  | NoSuperClass n => chars "Super class " ++ n ++ chars " could not be loaded"
  | BadDouble _ => chars "Could not parse double. Expected a number but got '" ++ t ++ chars "'"
  | BadInteger => chars "Could not parse integer. Expected a number but got '" ++ t ++ chars "'"
  | BadAssignment => chars "Assignments should always target variables or fields, but found instead a " ++ token_text k t
  | PseudoVariable n => chars "It is not possible to write to `" ++ n ++ chars "`, it is a pseudo variable"
  | ArgumentTwice n => chars "The argument " ++ n ++ chars " was already defined."
  | LocalTwice n => chars "The local " ++ n ++ chars " was already defined."
  | JumpTooFar b o => chars "The jump_offset for the " ++ b ++ chars " bytecode is out of range: " ++ py_str o
  end.
(** The report: file, line, column, what is said, and the line of the source. *)
Definition report (file : text) (line column : nat) (said source : text) : text :=
  file ++ chars ":" ++ py_str (Z.of_nat line) ++ chars ":" ++ py_str (Z.of_nat column) ++ chars ": error: " ++ said ++ chars ": " ++ source.

(** No percent sign in the text. *)
Definition no_percent (t : text) : Prop := ~ In "%"%char t.
(** Nor in the texts that become part of the message before it is formatted. *)
Definition clean (c : complaint) (t : text) : Prop :=
  match c with
  | NoSuperClass n | PseudoVariable n | ArgumentTwice n | LocalTwice n => no_percent n
  | BadDouble _ | BadInteger => no_percent t
  | JumpTooFar b _ => no_percent b
  | _ => True
  end.
(** Line number [n] of a source, from 1. *)
Definition line_of (s : text) (n : nat) : text := nth (n - 1) (lines s) [].
