(** What a number program is, and when the translated VM and the same sources run by Python
    must give it the same answer.  Independent of how the number classes work: only the two
    ways of sending a message to a number are taken from the model. *)
From Coq Require Import ZArith Bool String List Ascii Floats.SpecFloat.
From Verif Require Import Base NumSpec NumModel NtxSpec NtxModel DblSpec.
Import ListNotations.
Open Scope Z_scope.

(** [t] in the translated VM and [h] under Python are the same SOM value: integers of the same
    mathematical value, whatever represents them, or equal objects. *)
Definition same_value (t h : value) : Prop :=
  valid Translated t /\ valid Hosted h /\
  match int_val t with Some z => int_val h = Some z | None => h = t end.
(** Both answer, and answer the same; or neither answers. *)
Definition same_outcome (t h : res value) : Prop :=
  (exists v w, t = Ok v /\ h = Ok w /\ same_value v w) \/ (fails t /\ fails h).

(** * Programs
    Expressions and statements over numbers: integer literals (their digits, and whether a minus
    sign stands before them), double literals, variables, assignments, sends, sequences, a choice
    and a loop on a boolean.  A send evaluates the receiver, then the argument.  A choice or loop
    on anything but true and false counts as a failure. *)
Inductive prog :=
| Lit (neg : bool) (digits : list ascii)
| Dbl (f : spec_float)
| Var (n : nat)
| Set_ (n : nat) (p : prog)
| Unary (p : prog) (sel : string)
| Binary (p : prog) (sel : string) (q : prog)
| Seq (p q : prog)
| If (c p q : prog)
| While (c p : prog).

Definition env := nat -> value.
Definition update (e : env) (n : nat) (v : value) : env :=
  fun k => if Nat.eqb k n then v else e k.
(** A message sent during a run: the receiver, the selector and the argument if there is one. *)
Definition sent := (value * string * option value)%type.
(** What happened: the messages sent, and the variables and the answer at the end, if the run got
    there. *)
Definition run_result := (list sent * option (env * res value))%type.
Definition andthen (r : run_result) (k : env -> value -> run_result) : run_result :=
  match r with
  | (tr, Some (e, Ok v)) => let '(tr', o) := k e v in (tr ++ tr', o)
  | r => r
  end.
Definition choose (e : env) (c : value) (yes no : run_result) : run_result :=
  match c with
  | VTrue => yes
  | VFalse => no
  | _ => ([], Some (e, Err TypeError))
  end.
(** The run of a program for at most [fuel] nested steps, in one of the two modes. *)
Fixpoint run (m : mode) (fuel : nat) (e : env) (p : prog) : run_result :=
  match fuel with
  | O => ([], None)
  | S fuel =>
      match p with
      | Lit neg digits => ([], Some (e, literal_integer m neg digits))
      | Dbl f => ([], Some (e, Ok (VDbl f)))
      | Var n => ([], Some (e, Ok (e n)))
      | Set_ n p => andthen (run m fuel e p) (fun e v => ([], Some (update e n v, Ok v)))
      | Unary p sel =>
          andthen (run m fuel e p) (fun e a => ([(a, sel, None)], Some (e, send0 m a sel)))
      | Binary p sel q =>
          andthen (run m fuel e p) (fun e a =>
          andthen (run m fuel e q) (fun e b => ([(a, sel, Some b)], Some (e, send1 m a sel b))))
      | Seq p q => andthen (run m fuel e p) (fun e _ => run m fuel e q)
      | If c p q =>
          andthen (run m fuel e c) (fun e v => choose e v (run m fuel e p) (run m fuel e q))
      | While c p =>
          andthen (run m fuel e c) (fun e v =>
            choose e v
              (andthen (run m fuel e p) (fun e _ => run m fuel e (While c p)))
              ([], Some (e, Ok VNil)))
      end
  end.

(** Every integer literal is written in digits. *)
Fixpoint well_written (p : prog) : Prop :=
  match p with
  | Lit _ t => exists n, numeral t n
  | Dbl _ | Var _ => True
  | Set_ _ p | Unary p _ => well_written p
  | Binary p _ q | Seq p q | While p q => well_written p /\ well_written q
  | If c p q => well_written c /\ well_written p /\ well_written q
  end.

(** * Messages on which the two agree, in terms of the values of the translated VM *)
Definition integer (v : value) : Prop := int_val v <> None.
Definition double (v : value) : Prop := exists f, v = VDbl f.
Definition big (v : value) : Prop := exists z, v = VBig z.
(** The one quotient of two machine words that is no machine word. *)
Definition smallest_by_minus_one (a b : value) : Prop := a = VInt (- 2 ^ 63) /\ b = VInt (-1).
Definition zero_number (v : value) : Prop :=
  match v with VInt z | VBig z => z = 0 | VDbl (S754_zero _) => True | _ => False end.

(** Messages on which they agree whatever the receiver and the argument. *)
Definition always : list string :=
  ["+"; "-"; "*"; "<"; "<="; ">"; ">="; "=="; "max:"; "min:"; "asDouble"]%string.

Definition agree1 (sel : string) (a b : value) : Prop :=
  (In sel ["="; "<>"; "~="]%string -> integer a -> forall f, b = VDbl f ->
     binary64 f /\ exists z, a = VInt z /\ - 2 ^ 53 <= z <= 2 ^ 53) /\
  (In sel ["/"; "%"; "rem:"]%string -> ~ smallest_by_minus_one a b) /\
  (sel = "/"%string -> integer a -> ~ double b) /\
  (sel = "rem:"%string -> big a -> ~ big b /\ ~ double b) /\
  (sel = "&"%string -> big a -> ~ double b) /\
  (sel = "//"%string -> ~ zero_number b /\ (integer a -> integer b -> ~ big a /\ ~ big b)) /\
  (In sel ["<<"; ">>>"; "bitXor:"]%string -> integer a -> integer b -> ~ big a /\ ~ big b) /\
  (sel = "<<"%string -> forall n, a = VInt 0 -> b = VInt n -> 0 <= n) /\
  (sel = ">>>"%string -> forall x n, a = VInt x -> b = VInt n -> n <= 0 \/ (0 <= x /\ n < 64)).
Definition agree0 (sel : string) (a : value) : Prop :=
  (sel = "abs"%string -> a <> VInt (- 2 ^ 63)) /\
  (In sel ["as32BitSignedValue"; "as32BitUnsignedValue"; "sqrt"]%string -> ~ big a) /\
  (sel = "asInteger"%string -> forall f u, a = VDbl f -> units f = Some u ->
     binary64 f /\ - 2 ^ 63 * unit_scale <= u < 2 ^ 63 * unit_scale) /\
  (sel = "round"%string -> forall f u, a = VDbl f -> units f = Some u ->
     binary64 f /\ Z.abs u < (2 ^ 63 - 1) * unit_scale).
Definition agreeing (s : sent) : Prop :=
  match s with
  | (a, sel, Some b) => agree1 sel a b
  | (a, sel, None) => agree0 sel a
  end.

(** A program that sends only messages on which they always agree. *)
Fixpoint sends_only (sels : list string) (p : prog) : Prop :=
  match p with
  | Lit _ _ | Dbl _ | Var _ => True
  | Set_ _ p => sends_only sels p
  | Unary p sel => In sel sels /\ sends_only sels p
  | Binary p sel q => In sel sels /\ sends_only sels p /\ sends_only sels q
  | Seq p q | While p q => sends_only sels p /\ sends_only sels q
  | If c p q => sends_only sels c /\ sends_only sels p /\ sends_only sels q
  end.

(** What the value of the translated VM is under Python. *)
Definition hosted (v : value) : value := match v with VBig z => VInt z | v => v end.

Definition same_env (e e' : env) : Prop := forall n, same_value (e n) (e' n).
(** The two runs sent the same messages with the same values. *)
Definition same_sent (s s' : sent) : Prop :=
  match s, s' with
  | (a, sel, b), (a', sel', b') => same_value a a' /\ sel = sel' /\
      match b, b' with Some b, Some b' => same_value b b' | None, None => True | _, _ => False end
  end.
Definition same_run (r r' : run_result) : Prop :=
  Forall2 same_sent (fst r) (fst r') /\
  match snd r, snd r' with
  | Some (e, o), Some (e', o') => same_env e e' /\ same_outcome o o'
  | None, None => True
  | _, _ => False
  end.
