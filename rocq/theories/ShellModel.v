(** The shell: som/vm/shell.py. *)
From Coq Require Import ZArith Bool String Ascii List.
From Verif Require Import Base LexModel ParseModel NtxModel ArgModel.
Import ListNotations.
Open Scope list_scope.

(** The text of the temporary class (shell.py 31-37). *)
Definition shell_source (counter : Z) (stmt : text) : text :=
  str "Shell_Class_" ++ py_str counter
    ++ str " = ( run: it = ( | tmp | tmp := (" ++ stmt ++ str " ). 'it = ' print. ^tmp println ) )".

(** What stops a statement: ParseError, Exit, another exception. *)
Inductive raised := RParse | RExit (code : Z) | RExc (e : exn).
(** How the shell ends: it answers a value, or Exit leaves it. *)
Inductive ending := Returned (it : value) | Exited (code : Z).

Section Shell.
(** The world [W] (globals, objects, output) and classes [C] are left open, as are:
    load_shell_class (41), which answers a class, None or raises; making an instance, finding
    run: and invoking it with [it] (45-48); the printing of a message on an exception (49-58). *)
Context {W C : Type}.
Variable load : text -> W -> W * (option C + raised).
Variable run : C -> value -> W -> W * (value + raised).
Variable report : raised -> W -> W.
Definition newline : string := String (ascii_of_nat 10) "".
(** The loop of start (21-58); [chunks] are the results of reading the input (ArgModel);
    [fuel] bounds the number of turns. *)
Fixpoint shell_loop (fuel : nat) (counter : Z) (it : value) (chunks : list string) (w : W) : option (W * ending) :=
  match fuel with
  | O => None
  | S fuel =>
      let (stmt, chunks) := raw_input "" chunks in
      if String.eqb stmt "quit" || String.eqb stmt "" then Some (w, Returned it)
      else if String.eqb stmt newline then shell_loop fuel counter it chunks w
      else
        let source := shell_source counter (str stmt) in
        let counter := (counter + 1)%Z in
        let failed r w := match r with
                          | RExit code => Some (w, Exited code)
                          | _ => shell_loop fuel counter it chunks (report r w)
                          end in
        match load source w with
        | (w, inr r) => failed r w
        | (w, inl None) => shell_loop fuel counter it chunks w
        | (w, inl (Some c)) =>
            match run c it w with
            | (w, inl v) => shell_loop fuel counter v chunks w
            | (w, inr r) => failed r w
            end
        end
  end.
(** start (16-17) *)
Definition shell_start (fuel : nat) (chunks : list string) (w : W) : option (W * ending) :=
  shell_loop fuel 0 VNil chunks w.
End Shell.
