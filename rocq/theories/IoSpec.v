(** UTF-8, and what a history of outputs should have written. *)
From Coq Require Import NArith Bool List.
From Verif Require Import Base IoModel.
Import ListNotations.
Open Scope N_scope.
Open Scope list_scope.

(** * UTF-8 (RFC 3629) *)
(** A character, from its bits, and its bytes: the shortest form that has room for it; there
    are none for the surrogates 0xD800 to 0xDFFF and none beyond 0x10FFFF. *)
Inductive utf8_char : N -> list N -> Prop :=
| one_byte a : a < 128 -> utf8_char a [a]
| two_bytes a b : a < 32 -> b < 64 -> 128 <= a * 64 + b ->
    utf8_char (a * 64 + b) [192 + a; 128 + b]
| three_bytes a b c : a < 16 -> b < 64 -> c < 64 -> 2048 <= a * 4096 + b * 64 + c ->
    ~ (55296 <= a * 4096 + b * 64 + c <= 57343) ->
    utf8_char (a * 4096 + b * 64 + c) [224 + a; 128 + b; 128 + c]
| four_bytes a b c d : a < 8 -> b < 64 -> c < 64 -> d < 64 ->
    65536 <= a * 262144 + b * 4096 + c * 64 + d <= 1114111 ->
    utf8_char (a * 262144 + b * 4096 + c * 64 + d) [240 + a; 128 + b; 128 + c; 128 + d].
Inductive utf8 : list N -> list N -> Prop :=
| no_text : utf8 [] []
| more_text c bs t r : utf8_char c bs -> utf8 t r -> utf8 (c :: t) (bs ++ r).
(** A character of Python, and one that can be encoded. *)
Definition is_char (c : N) : Prop := c < 1114112.
Definition scalar (c : N) : Prop := is_char c /\ ~ (55296 <= c <= 57343).

(** * Outputs *)
Definition breakpoint_text : list N := [66; 82; 69; 65; 75; 80; 79; 73; 78; 84; 10].
(** The text an action shows on the standard output ([true]) or on the standard error. *)
Definition shows (one : bool) (x : act) : list N :=
  match x, one with
  | PrintString (AStr t), true => t
  | PrintNewline, true => [10]
  | Halt, true => breakpoint_text
  | ErrorPrint (AStr t), false => t
  | ErrorPrintln (AStr t), false => t ++ [10]
  | _, _ => []
  end.
Definition shown_text (one : bool) (xs : list act) : list N := concat (map (shows one) xs).
(** An action with a string for an argument. *)
Definition has_string (x : act) : Prop :=
  match x with PrintString a | ErrorPrint a | ErrorPrintln a => a <> AOther | _ => True end.
Definition no_halt (x : act) : Prop := x <> Halt.
(** The system takes all the bytes it is given. *)
Definition takes_all (p : act * system_) : Prop :=
  match snd p with
  | Takes n => forall one bs, utf8 (shows one (fst p)) bs -> (length bs <= n)%nat
  | Fails => False
  end.

(** * Files *)
(** The text of a file: that of its bytes, with CR LF and CR for line ends read as LF. *)
Inductive lines_as : list N -> list N -> Prop :=
| lines_end : lines_as [] []
| lines_crlf t u : lines_as t u -> lines_as (13 :: 10 :: t) (10 :: u)
| lines_cr t u : lines_as t u -> (forall r, t <> 10 :: r) -> lines_as (13 :: t) (10 :: u)
| lines_other c t u : c <> 13 -> lines_as t u -> lines_as (c :: t) (c :: u).
(** The reads deliver a text in some nonempty pieces, and nothing else happens. *)
Definition delivers (es : list event) (t : list N) : Prop :=
  exists ps, es = map Text ps /\ concat ps = t /\ Forall (fun p => p <> []) ps.
(** The text delivered before the first failure. *)
Fixpoint before_failure (es : list event) : list N :=
  match es with Text t :: es => t ++ before_failure es | _ => [] end.
