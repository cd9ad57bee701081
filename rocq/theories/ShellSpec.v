(** What a session with the shell is, without the shell. *)
From Coq Require Import ZArith Bool String Ascii List.
From Verif Require Import Base LexModel ParseModel ArgModel ArgSpec ShellModel.
Import ListNotations.
Open Scope list_scope.

(** * Input *)
Definition end_of_line : ascii := ascii_of_nat 10.
(** A line reaches the shell in pieces, the last of which ends with the end of the line. *)
Definition arrives (line : string) (chunks : list string) : Prop :=
  exists pieces final,
    chunks = pieces ++ [(final ++ String end_of_line "")%string] /\
    Forall (fun p => p <> ""%string /\ no_char end_of_line p) pieces /\ no_char end_of_line final /\
    line = (String.concat "" pieces ++ final)%string.
(** A line with a statement: not empty and not the word quit. *)
Definition statement (line : string) : Prop := line <> ""%string /\ line <> "quit"%string.

(** * The class the shell makes of an expression *)
(** [Name = ( run: it = ( | tmp | tmp := e. 'it = ' print. ^ tmp println ) )] *)
Definition shell_class (name : text) (e : expr) : classdef method :=
  {| c_name := name; c_super := None; c_fields := [];
     c_methods := [{| m_selector := str "run:"; m_params := [str "it"];
                      m_body := Some ([str "tmp"],
                                      [Asgn [str "tmp"] e; Send false (Lit (LStr (str "it = "))) (str "print") []],
                                      Some (Send false (Var (str "tmp")) (str "println") [])) |}];
     c_class_fields := []; c_class_methods := [] |}.

(** * A session *)
Section Session.
Context {W C : Type}.
Variable load : text -> W -> W * (option C + raised).
Variable run : C -> value -> W -> W * (value + raised).
Variable report : raised -> W -> W.
(** What becomes of a statement: an answer; a failure, which is reported; the end of the
    program. *)
Inductive result := Answer (v : value) | Failure | Leave (code : Z).
(** Compiling and running a class text with [it]. *)
Definition evaluate (source : text) (it : value) (w : W) : W * result :=
  let stop w r := match r with RExit code => (w, Leave code) | _ => (report r w, Failure) end in
  match load source w with
  | (w, inr r) => stop w r
  | (w, inl None) => (w, Failure)
  | (w, inl (Some c)) => match run c it w with (w, inl v) => (w, Answer v) | (w, inr r) => stop w r end
  end.
(** The value of the last statement that was answered, nil if there is none. *)
Definition latest (rs : list result) : value :=
  fold_left (fun it r => match r with Answer v => v | _ => it end) rs VNil.
Definition leaves (r : result) : Prop := exists code, r = Leave code.
(** [turns w lines rs ws]: the statements [lines] have the results [rs] and leave the worlds
    [ws], one after the other: the [i]-th one is compiled in the class with number [i], in the
    world left by the one before, and run with [it] the latest answer. *)
Definition turns (w : W) (lines : list string) (rs : list result) (ws : list W) : Prop :=
  length rs = length lines /\ length ws = length lines /\
  forall i line, nth_error lines i = Some line ->
    exists w' r, nth_error ws i = Some w' /\ nth_error rs i = Some r /\
      evaluate (shell_source (Z.of_nat i) (str line)) (latest (firstn i rs)) (nth i (w :: ws) w) = (w', r).
End Session.
