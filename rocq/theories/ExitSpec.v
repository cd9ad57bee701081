(** What a user expects of the end of a run: a program is executed on a stack of activations; [exit:]
    ends it there and then, whatever is on the stack. *)
From Coq Require Import ZArith Bool String Ascii List.
From Verif Require Import Base LexModel ParseModel ExitModel.
Import ListNotations.
Open Scope Z_scope.
Open Scope list_scope.

(** Ways to end *)
Inductive fin := Finished (v : option value) | Exits (z : Z) | SyntaxError (r : report_) | Failed (e : exn) (msg : text).
(** An activation waiting for an answer, with its number if blocks can return from it. *)
Definition frame := (option nat * (option value -> prog))%type.
(** The activation a return leads to, and what is below it. *)
Fixpoint home_of (m : nat) (st : list frame) : option ((option value -> prog) * list frame) :=
  match st with
  | [] => None
  | (Some h, k) :: st => if Nat.eqb m h then Some (k, st) else home_of m st
  | (None, _) :: st => home_of m st
  end.
(** The first file that is there. *)
Fixpoint first_file (paths : list file) : option file :=
  match paths with [] => None | Absent :: paths => first_file paths | f :: _ => Some f end.

(** [ends n p st ws f n']: p on the stack st writes ws (false: output, true: errors) and ends with f; activations are numbered from n on. *)
Inductive ends : nat -> prog -> list frame -> list (bool * text) -> fin -> nat -> Prop :=
| E_end n v : ends n (PRet v) [] [] (Finished v) n
| E_answer n v h k st ws f n' : ends n (k v) st ws f n' -> ends n (PRet v) ((h, k) :: st) ws f n'
| E_out n err t k st ws f n' : ends n k st ws f n' -> ends n (POut err t k) st ((err, t) :: ws) f n'
| E_exit n z k st : ends n (PExit (VInt z) k) st [] (Exits z) n
| E_exit_other n v k st : (forall z, v <> VInt z) -> ends n (PExit v k) st [] (Failed AttributeError no_attribute) n
| E_raise n e msg st : ends n (PRaise e msg) st [] (Failed e msg) n
| E_parse n r st : ends n (PParse r) st [] (SyntaxError r) n
| E_return n m v esc st k st' ws f n' :
    home_of m st = Some (k, st') -> ends n (k v) st' ws f n' -> ends n (PReturn m v esc) st ws f n'
| E_escaped n m v esc st ws f n' : home_of m st = None -> ends n esc st ws f n' -> ends n (PReturn m v esc) st ws f n'
| E_call n body k st ws f n' : ends n body ((None, k) :: st) ws f n' -> ends n (PCall body k) st ws f n'
| E_home n body k st ws f n' : ends (S n) (body n) ((Some n, k) :: st) ws f n' -> ends n (PHome body k) st ws f n'
| E_found n name paths k st ws f n' :
    first_file paths = Some (Named name) -> ends n (k true) st ws f n' -> ends n (PLoad name paths k) st ws f n'
| E_not_found n name paths k st ws f n' :
    first_file paths = None -> ends n (k false) st ws f n' -> ends n (PLoad name paths k) st ws f n'
| E_wrong n name paths r k st : first_file paths = Some (Wrong r) -> ends n (PLoad name paths k) st [] (SyntaxError r) n
| E_other_name n name cname paths k st :
    first_file paths = Some (Named cname) -> name <> cname ->
    ends n (PLoad name paths k) st [(true, mismatch name cname)] (Exits 1) n.

(** The status of the process *)
Definition word (z : Z) : Prop := - 2 ^ 63 <= z < 2 ^ 63.
Inductive status : fin -> Z -> Prop :=
| S_finished v : status (Finished v) 0
| S_exit z : word z -> status (Exits z) (z mod 256)
| S_exit_big z : ~ word z -> status (Exits z) 255
| S_syntax r : status (SyntaxError r) 1
| S_failed e msg : status (Failed e msg) 1.
(** What is written to the error output at the very end; [tb] is what Python prints for an exception nobody catches. *)
Definition last_words (translated : bool) (tb : raised -> text) (f : fin) : list (bool * text) :=
  match f with
  | Finished _ | Exits _ => []
  | SyntaxError (inl t) => [(true, if translated then t else t ++ nl)]
  | SyntaxError (inr e) => [(true, tb (ROther e []))]
  | Failed e msg => [(true, if translated then str "ERROR: " ++ msg ++ str " thrown during execution." ++ nl else tb (ROther e msg))]
  end.
(** The texts of one descriptor *)
Definition on (err : bool) (ws : list (bool * text)) : text :=
  concat (map (fun x => if Bool.eqb (fst x) err then snd x else []) ws).
(** [w'] is [w] with these outputs added. *)
Definition shows (w' w : world) (ws : list (bool * text)) : Prop :=
  stdout w' = stdout w ++ on false ws /\ stderr w' = stderr w ++ on true ws.

(** A session of the shell: each statement runs on an empty stack, failures are reported and the next statement is read
    ([failures]: sessions with statements that fail are considered, too). *)
Definition caught (translated : bool) (tb : raised -> text) (e : exn) (msg : text) : list (bool * text) :=
  (if translated then [] else [(true, tb (ROther e msg))]) ++ [(true, str "Caught exception: " ++ msg ++ nl)].
Section Session.
Variables (translated failures : bool) (tb : raised -> text).
Inductive session : nat -> list line -> option value -> list (bool * text) -> fin -> Prop :=
| L_over n it : session n [] it [] (Finished it)
| L_quit n it ls : session n (Quit :: ls) it [] (Finished it)
| L_newline n it ls ws f : session n ls it ws f -> session n (Newline :: ls) it ws f
| L_garbled n it e msg ls ws f :
    session n ls it ws f -> session n (Garbled e msg :: ls) it (caught translated tb e msg ++ ws) f
| L_value n it p ls ws v n' ws' f :
    ends n (p it) [] ws (Finished v) n' -> session n' ls v ws' f -> session n (Stmt p :: ls) it (ws ++ ws') f
| L_exit n it p ls ws z n' : ends n (p it) [] ws (Exits z) n' -> session n (Stmt p :: ls) it ws (Exits z)
| L_syntax n it p ls ws t n' ws' f :
    failures = true -> ends n (p it) [] ws (SyntaxError (inl t)) n' -> session n' ls it ws' f ->
    session n (Stmt p :: ls) it (ws ++ (true, t ++ nl) :: ws') f
| L_unreportable n it p ls ws e n' :
    ends n (p it) [] ws (SyntaxError (inr e)) n' -> session n (Stmt p :: ls) it ws (Failed e [])
| L_failed n it p ls ws e msg n' ws' f :
    failures = true -> ends n (p it) [] ws (Failed e msg) n' -> session n' ls it ws' f ->
    session n (Stmt p :: ls) it (ws ++ caught translated tb e msg ++ ws') f.
End Session.

(** A start without history *)
Definition start (w : world) : Prop := next w = O /\ gone w = [].
(** Activations around a program *)
Inductive around := InCall (k : option value -> prog) | InHome (k : option value -> prog).
Definition inside (fs : list around) (p : prog) : prog :=
  fold_right (fun f p => match f with InCall k => PCall p k | InHome k => PHome (fun _ => p) k end) p fs.
(** Writing some texts first *)
Definition writing (ws : list (bool * text)) (p : prog) : prog := fold_right (fun x p => POut (fst x) (snd x) p) p ws.
(** The interpreter in use: built in, or named by the environment variable SOM_INTERP. *)
Inductive uses : option kind -> option string -> kind -> Prop :=
| U_built i env : uses (Some i) env i
| U_ast : uses None (Some "AST"%string) Ast
| U_bc : uses None (Some "BC"%string) Bc.
Definition is_translated (built : option kind) : bool := match built with Some _ => true | None => false end.
