(** How a run of the VM ends: main.py, main_rpython.py (21-32), main, interpret and exit of
    som/vm/universe.py (104-108, 127-140, 503-509), exit: (system_primitives.py 18-19), the
    handlers an exception passes on its way out (method_bc.py 200-211, 681-694,
    return_non_local_node.py 76-87, universe.py 451-471, shell.py 13-58), interp_type.py. *)
From Coq Require Import ZArith Bool String Ascii List.
From Verif Require Import Base LexModel ParseModel ArgModel.
Import ListNotations.
Open Scope Z_scope.
Open Scope list_scope.

(** What str(ex) of a ParseError (parse_error.py 24-40) comes to: a text, or an exception (C67). *)
Definition report_ := (text + exn)%type.
(** A file of _load_class (universe.py 451-471): not there (IOError), with a syntax error, or a class with a name
    (sourcecode_compiler.py 14-38). *)
Inductive file := Absent | Wrong (r : report_) | Named (class_name : text).

(** What a program does, as far as the end of the run depends on it; [None] is Python's None.
    Simplification: what does not write, load, call, return or fail is left out, and a program
    is the tree of what it can do, so programs that run for ever are not here. *)
Inductive prog :=
| PRet (v : option value)                                        (* the end of a body *)
| POut (err : bool) (t : text) (k : prog)                        (* universe.py 487-500 *)
| PExit (arg : value) (k : option value -> prog)                 (* system exit: arg *)
| PRaise (e : exn) (msg : text)                                  (* a Python exception of the VM, with its str() *)
| PParse (r : report_)                                           (* a ParseError *)
| PReturn (m : nat) (v : option value) (escaped : prog)          (* ^ v in a block of activation m (interpreter.py 77-85, return_non_local_node.py 41-49), or escapedBlock: *)
| PCall (body : prog) (k : option value -> prog)                 (* an activation *)
| PHome (body : nat -> prog) (k : option value -> prog)          (* an activation that catches returns; its number *)
| PLoad (name : text) (paths : list file) (k : bool -> prog).     (* load_class: found or not *)

(** Exceptions (rlib/exit.py 1-8, parse_error.py 4, control_flow.py 1-18, any other). *)
Inductive raised := RExit (code : Z) | RParse (r : report_) | RReturn (m : nat) (v : option value) | ROther (e : exn) (msg : text).
(** What has been written to the two descriptors (universe.py 487-500), and _last_exit_code (universe.py 105-106). *)
Record world := World { stdout : text; stderr : text; last_exit : option Z;
                        next : nat; gone : list nat (* activations marked as no longer on the stack *) }.
(** The "\n" of universe.py 492, 500 *)
Definition nl : text := [ascii_of_nat 10].
(** error_print(ln), std_print(ln) (universe.py 487-500).  Simplification: the system takes everything (C70). *)
Definition put (err : bool) (t : text) (w : world) : world :=
  if err then World (stdout w) (stderr w ++ t) (last_exit w) (next w) (gone w)
  else World (stdout w ++ t) (stderr w) (last_exit w) (next w) (gone w).
(** Universe.exit (universe.py 104-108) *)
Definition exit_ (avoid : bool) (code : Z) (w : world) : world * (option value + raised) :=
  if avoid then (World (stdout w) (stderr w) (Some code) (next w) (gone w), inl None) else (w, inr (RExit code)).
(** The name of an attribute that is missing, in str(AttributeError): any text. *)
Definition no_attribute : text := str "object has no attribute 'get_embedded_integer'".
(** _exit (system_primitives.py 18-19); only Integer has get_embedded_integer (integer.py 16). *)
Definition exit_primitive (avoid : bool) (arg : value) (w : world) : world * (option value + raised) :=
  match arg with
  | VInt z => exit_ avoid z w
  | _ => (w, inr (ROther AttributeError no_attribute))
  end.
(** The message of sourcecode_compiler.py 33-35 *)
Definition mismatch (filename cname : text) : text :=
  str "File name " ++ filename ++ str " does not match class name " ++ cname ++ str "." ++ nl.
(** _load_class (universe.py 451-471) with compile_class_from_file (sourcecode_compiler.py 14-38) *)
Fixpoint load_class (avoid : bool) (name : text) (paths : list file) (w : world) : world * (bool + raised) :=
  match paths with
  | [] => (w, inl false)
  | Absent :: paths => load_class avoid name paths w
  | Wrong r :: _ => (w, inr (RParse r))
  | Named cname :: _ =>
      if text_eqb name cname then (w, inl true)
      else match exit_ avoid 1 (put true (mismatch name cname) w) with
           | (w, inl _) => (w, inl true)
           | (w, inr r) => (w, inr r)
           end
  end.
(** The interpreters (interp_type.py 8-9) *)
Inductive kind := Ast | Bc.
(** A new context; mark_as_no_longer_on_stack and is_on_stack (frame.py 206-212). *)
Definition fresh (w : world) : world := World (stdout w) (stderr w) (last_exit w) (S (next w)) (gone w).
Definition mark_gone (m : nat) (w : world) : world := World (stdout w) (stderr w) (last_exit w) (next w) (m :: gone w).
Definition is_on_stack (m : nat) (w : world) : bool := Nat.ltb m (next w) && negb (existsb (Nat.eqb m) (gone w)).
(** The end of an activation that catches returns: only a ReturnException for it ends here.  The bytecode interpreter
    (method_bc.py 200-211, 681-694) marks it for an answer and for a ReturnException, the AST interpreter
    (return_non_local_node.py 76-87) in every case. *)
Definition catch (i : kind) (h : nat) (w : world) (r : option value + raised) : world * (option value + raised) :=
  match r with
  | inl v => (mark_gone h w, inl v)
  | inr (RReturn m v) => (mark_gone h w, if Nat.eqb m h then inl v else r)
  | inr _ => (match i with Ast => mark_gone h w | Bc => w end, r)
  end.
(** Execution of a program: calls are Python calls (method_bc.py 200-211), exceptions Python exceptions. *)
Fixpoint run (i : kind) (avoid : bool) (p : prog) (w : world) : world * (option value + raised) :=
  match p with
  | PRet v => (w, inl v)
  | POut err t k => run i avoid k (put err t w)
  | PExit arg k =>
      match exit_primitive avoid arg w with
      | (w, inl v) => run i avoid (k v) w
      | (w, inr r) => (w, inr r)
      end
  | PRaise e msg => (w, inr (ROther e msg))
  | PParse r => (w, inr (RParse r))
  | PReturn m v escaped => if is_on_stack m w then (w, inr (RReturn m v)) else run i avoid escaped w
  | PCall body k =>
      match run i avoid body w with
      | (w, inl v) => run i avoid (k v) w
      | (w, inr r) => (w, inr r)
      end
  | PHome body k =>
      let (w', r) := run i avoid (body (next w)) (fresh w) in
      match catch i (next w) w' r with
      | (w, inl v) => run i avoid (k v) w
      | (w, inr r) => (w, inr r)
      end
  | PLoad name paths k =>
      match load_class avoid name paths w with
      | (w, inl found) => run i avoid (k found) w
      | (w, inr r) => (w, inr r)
      end
  end.

(** The message of _load_system_class (universe.py 441-446) *)
Definition not_loaded (name : text) : text :=
  name ++ str " class could not be loaded. It is likely that the class path has not been initialized properly."
       ++ str " Please make sure that the '-cp' parameter is given on the command-line." ++ nl.
(** The same, in a program that goes on with [k] (universe.py 436-449) *)
Definition load_system_class (name : text) (paths : list file) (k : prog) : prog :=
  PLoad name paths (fun found => if found then k else POut true (not_loaded name) (PExit (VInt 200) (fun _ => k))).
(** The loads of _initialize_object_system (universe.py 213-314), one class after the other. *)
Definition load_system_classes (cs : list (text * list file)) (k : prog) : prog :=
  fold_right (fun c k => load_system_class (fst c) (snd c) k) k cs.

Section Shell.
(** traceback.print_exc (shell.py 54-57) writes some text. *)
Variable traceback : raised -> text.
(** str() of an exception other than a ParseError (shell.py 58); control_flow.py 17-18 *)
Definition message (r : raised) : text :=
  match r with ROther _ msg => msg | RReturn _ _ => str "ReturnEx" | _ => [] end.
(** What raw_input (shell.py 24) gives: quit or nothing, a newline, a statement (the class made of it is compiled and
    its run: invoked with [it]), or an exception. *)
Inductive line := Quit | Newline | Stmt (code : option value -> prog) | Garbled (e : exn) (msg : text).
(** The handlers of shell.py 49-58 *)
Definition handle (translated : bool) (r : raised) (w : world) : world * option raised :=
  match r with
  | RParse (inl t) => (put true (t ++ nl) w, None)
  | RParse (inr e) => (w, Some (ROther e []))
  | RExit _ => (w, Some r)
  | _ => (put true (str "Caught exception: " ++ message r ++ nl) (if translated then w else put true (traceback r) w), None)
  end.
(** start (shell.py 16-58); at the end of the input raw_input gives nothing *)
Fixpoint shell_loop (translated : bool) (i : kind) (avoid : bool) (lines : list line) (it : option value) (w : world) : world * (option value + raised) :=
  match lines with
  | [] | Quit :: _ => (w, inl it)
  | Newline :: lines => shell_loop translated i avoid lines it w
  | l :: lines =>
      let (w, r) := match l with
                    | Stmt code => run i avoid (code it) w
                    | Garbled e msg => (w, inr (ROther e msg))
                    | _ => (w, inl it)
                    end in
      match r with
      | inl v => shell_loop translated i avoid lines v w
      | inr r => match handle translated r w with
                 | (w, None) => shell_loop translated i avoid lines it w
                 | (w, Some r) => (w, inr r)
                 end
      end
  end.
(** shell.py 19 *)
Definition greeting : text := str "SOM Shell. Type ""quit"" to exit." ++ nl ++ nl.

(** The usage (universe.py 198-211) *)
Definition usage : text :=
  str "Usage: som [-options] [args...]                          " ++ nl ++
  str "                                                         " ++ nl ++
  str "where options include:                                   " ++ nl ++
  str "    -cp <directories separated by :>" ++ nl ++
  str "        set search path for application classes" ++ nl ++
  str "    -d  enable disassembling" ++ nl ++
  str "    -h  print this help" ++ nl ++ nl ++
  str "    --no-gc disable garbage collection" ++ nl.
(** interpret (universe.py 127-140): [a] is what handle_arguments came to (ArgModel), [boot] the start-up, [init] System>>initialize:
    with the arguments. *)
Definition interpret (translated : bool) (i : kind) (avoid : bool) (a : aout) (boot : prog) (init : list string -> prog) (lines : list line) (w : world)
  : world * (option value + raised) :=
  match a with
  | AExit => exit_ avoid 0 (put false usage w)
  | ACrash e => (w, inr (ROther e []))
  | ARun _ _ args =>
      match run i avoid boot w with
      | (w, inr r) => (w, inr r)
      | (w, inl _) =>
          match args with
          | [] => shell_loop translated i avoid lines (Some VNil) (put false greeting w)
          | _ => run i avoid (init args) w
          end
      end
  end.
(** main (universe.py 503-509) *)
Definition main_ (translated : bool) (i : kind) (avoid : bool) a boot init lines (w : world) : world * (option value + raised) :=
  match interpret translated i avoid a boot init lines w with
  | (w, inl _) => exit_ avoid 0 w
  | (w, inr r) => (w, inr r)
  end.
(** sys.exit (main.py 9, 14, 16) and the result of entry_point (main_rpython.py 25): the system keeps the last eight bits; Python gives -1 for what is no C long. *)
Definition os_status (z : Z) : Z := (if (- 2 ^ 63 <=? z) && (z <? 2 ^ 63) then z else -1) mod 256.
(** main.py 6-16: the final state and the status of the process; Python prints a traceback for an exception nobody catches and answers 1. *)
Definition main_py (i : kind) (avoid : bool) a boot init lines (w : world) : world * Z :=
  match main_ false i avoid a boot init lines w with
  | (w, inl _) => (w, os_status 0)
  | (w, inr (RExit z)) => (w, os_status z)
  | (w, inr (RParse (inl t))) => (put true (t ++ nl) w, os_status 1)
  | (w, inr (RParse (inr e))) => (put true (traceback (ROther e [])) w, os_status 1)
  | (w, inr r) => (put true (traceback r) w, os_status 1)
  end.
(** entry_point (main_rpython.py 21-32); an exception in the handler leaves the RPython program with status 1 as well. *)
Definition entry_point (i : kind) (avoid : bool) a boot init lines (w : world) : world * Z :=
  match main_ true i avoid a boot init lines w with
  | (w, inl _) => (w, os_status 1)
  | (w, inr (RExit z)) => (w, os_status z)
  | (w, inr (RParse (inl t))) => (put true t w, os_status 1)
  | (w, inr (RParse (inr e))) => (put true (traceback (ROther e [])) w, os_status 1)
  | (w, inr r) => (put true (str "ERROR: " ++ message r ++ str " thrown during execution." ++ nl) w, os_status 1)
  end.

(** _get_interp_type (interp_type.py 13-25): which interpreter, or none *)
Definition interp_type (env : option string) : option kind :=
  match env with
  | Some s => if String.eqb s "AST" then Some Ast else if String.eqb s "BC" then Some Bc else None
  | None => None
  end.
(** The message of interp_type.py 15-19 *)
Definition tab : text := [ascii_of_nat 9].
(** The same lines together (interp_type.py 15-19) *)
Definition no_interp : text :=
  str "Type of interpreter not set. Please set the SOM_INTERP environment variable" ++ nl ++
  tab ++ str "SOM_INTERP=AST   Use an Abstract Syntax Tree interpreter" ++ nl ++
  tab ++ str "SOM_INTERP=BC    Use a Bytecode interpreter" ++ nl.
(** A run of the VM: the environment and the command line (sys.argv without the program), run by Python (main.py 6-16) or translated
    (main_rpython.py 21-32; there the interpreter is chosen when it is built: interp_type.py 29). *)
Definition process (built : option kind) (env : option string) (args : list string) (boot : prog) (init : list string -> prog)
    (lines : list line) (w : world) : world * Z :=
  match built with
  | Some i => entry_point i false (handle_arguments false args) boot init lines w
  | None =>
      match interp_type env with
      | None => (put false no_interp w, os_status 1)
      | Some i => main_py i false (handle_arguments false args) boot init lines w
      end
  end.
End Shell.
