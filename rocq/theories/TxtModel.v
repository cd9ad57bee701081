(** Symbols, selector arity, globals and string primitives. *)
From Coq Require Import ZArith Bool String Ascii List Floats.SpecFloat.
From Verif Require Import Base.
Import ListNotations.
Open Scope Z_scope.
Open Scope list_scope.

(** * Symbols (vm/symbols.py 5-18) *)
(** _symbol_table maps names to Symbol objects, here their identities; [st_next] is the
    identity of the next object allocated. *)
Record symtab := { st_map : list (string * nat); st_next : nat }.
Fixpoint assoc_get {A} (d : list (string * A)) (s : string) : option A :=
  match d with
  | [] => None
  | (k, v) :: t => if String.eqb k s then Some v else assoc_get t s
  end.
Definition symbol_for (t : symtab) (s : string) : nat * symtab :=
  match assoc_get (st_map t) s with
  | Some i => (i, t)
  | None => (st_next t, {| st_map := (s, st_next t) :: st_map t; st_next := S (st_next t) |})
  end.
Definition empty_symtab : symtab := {| st_map := []; st_next := 0 |}.

(** * Arity of a selector (vmobjects/symbol.py) *)
(** symbol.py 31-51: the operator characters. *)
Definition is_operator_char (c : ascii) : bool :=
  (Ascii.eqb c "~" || Ascii.eqb c "&" || Ascii.eqb c "|" || Ascii.eqb c "*" || Ascii.eqb c "/"
   || Ascii.eqb c "@" || Ascii.eqb c "+" || Ascii.eqb c "-" || Ascii.eqb c "=" || Ascii.eqb c ">"
   || Ascii.eqb c "<" || Ascii.eqb c "," || Ascii.eqb c "%" || Ascii.eqb c "\")%char.
Fixpoint is_binary_signature (s : string) : bool :=
  match s with
  | EmptyString => true
  | String c t => if is_operator_char c then is_binary_signature t else false
  end.
(** symbol.py 20-23: the counting loop. *)
Fixpoint count_colons (s : string) (n : nat) : nat :=
  match s with
  | EmptyString => n
  | String c t => count_colons t (if Ascii.eqb c ":" then S n else n)
  end.
(** symbol.py 13-26: includes the receiver. *)
Definition number_of_signature_arguments (s : string) : nat :=
  if is_binary_signature s then 2 else S (count_colons s 0).

(** * Globals (vm/universe.py 369-427) *)
(** The dictionary maps names to Assoc objects; [cells] holds the value of each Assoc,
    [None] being Python's None. *)
Record globals := { g_table : list (string * nat); g_cells : list (option value) }.
Definition empty_globals : globals := {| g_table := []; g_cells := [] |}.
Definition cell (g : globals) (i : nat) : option value := nth i (g_cells g) None.
Fixpoint set_nth {A} (l : list A) (i : nat) (x : A) : list A :=
  match l, i with
  | [], _ => []
  | _ :: t, O => x :: t
  | h :: t, S j => h :: set_nth t j x
  end.
(** universe.py 369-380: get_global, _get_global *)
Definition get_global (g : globals) (n : string) : option value :=
  match assoc_get (g_table g) n with Some i => cell g i | None => None end.
(** universe.py 385-387 *)
Definition has_global (g : globals) (n : string) : bool :=
  match assoc_get (g_table g) n with Some _ => true | None => false end.
(** universe.py 389-395 *)
Definition get_globals_association (g : globals) (n : string) : nat * globals :=
  match assoc_get (g_table g) n with
  | Some i => (i, g)
  | None => (length (g_cells g),
             {| g_table := (n, length (g_cells g)) :: g_table g; g_cells := g_cells g ++ [Some VNil] |})
  end.
(** universe.py 382-383 *)
Definition set_global (g : globals) (n : string) (v : option value) : globals :=
  let (i, g') := get_globals_association g n in
  {| g_table := g_table g'; g_cells := set_nth (g_cells g') i v |}.
(** universe.py 417-427: load_class.  [found] is what _load_class (451-471) finds on the
    class path: a class or None.  The classes and globals created while compiling the
    class are separate steps of a history. *)
Definition load_class (g : globals) (n : string) (found : option value) : option value * globals :=
  match get_global g n with
  | Some v => (Some v, g)
  | None => (found, set_global g n found)
  end.

(** primitives/system_primitives.py 13-35: load:, global:, hasGlobal:, global:put:. *)
Definition or_nil (v : option value) : value := match v with Some x => x | None => VNil end.
Definition prim_load (g : globals) (n : string) (found : option value) : value * globals :=
  let (r, g') := load_class g n found in (or_nil r, g').
Definition prim_global (g : globals) (n : string) : value := or_nil (get_global g n).
Definition prim_has_global (g : globals) (n : string) : bool := has_global g n.
Definition prim_global_put (g : globals) (n : string) (v : value) : value * globals :=
  (v, set_global g n (Some v)).

(** Reads in compiled code.  [Unknown]: unknownGlobal: is sent to self. [Leak]: Python's
    None is used as the value of the expression. *)
Inductive gread := Value (v : value) | Unknown | Leak.
Definition assoc_value (g : globals) (i : nat) : gread :=
  match cell g i with Some v => Value v | None => Leak end.

(** bc/interpreter.py 264-275: push_global. *)
Definition bc_push_global (g : globals) (n : string) : gread :=
  match get_global g n with Some v => Value v | None => Unknown end.

(** ast/nodes/global_read_node.py: the state of a read node.  [GCached] holds the Assoc. *)
Inductive gnode := GUninit | GCached (i : nat).
(** 11-27: create_global_node, for a name other than nil, true and false. *)
Definition create_global_node (g : globals) (n : string) : gnode :=
  match assoc_get (g_table g) n with Some i => GCached i | None => GUninit end.
(** 38-50 and 68-69: execute. *)
Definition ast_global_read (g : globals) (n : string) (s : gnode) : gread * gnode * globals :=
  match s with
  | GCached i => (assoc_value g i, s, g)
  | GUninit =>
      if has_global g n
      then let (i, g') := get_globals_association g n in (assoc_value g' i, GCached i, g')
      else (Unknown, s, g)
  end.
(** vmobjects/method_trivial.py 84-107: GlobalRead, [_assoc] is None or a cell. *)
Definition trivial_global_read (g : globals) (n : string) (s : gnode) : gread * gnode * globals :=
  match s with
  | GCached i => (assoc_value g i, s, g)
  | GUninit =>
      if has_global g n
      then let (i, g') := get_globals_association g n in (assoc_value g' i, GCached i, g')
      else (Unknown, s, g)
  end.

(** * Strings (primitives/string_primitives.py, symbol_primitives.py) *)
(** A Python slice s[i:j] with 0 <= i. *)
Definition slice (s : string) (i j : Z) : string := String.substring (Z.to_nat i) (Z.to_nat (j - i)) s.
Definition len (s : string) : Z := Z.of_nat (String.length s).
Definition out_of_bounds : string := "Error - index out of bounds".
(** string_primitives.py 11-12 *)
Definition prim_concat (a b : string) : string := a ++ b.
(** 19-20 *)
Definition prim_length (a : string) : value := VInt (len a).
(** 23-29 and symbol_primitives.py 11-18: the argument may be a Symbol, a subclass of
    String; the receivers' method is the same for every pair of texts. *)
Definition prim_equals (a : string) (b : value) : bool :=
  match b with VStr s | VSym s => String.eqb a s | _ => false end.
(** 32-39 *)
Definition prim_substring (m : mode) (a : string) (start end_ : Z) : string :=
  let s := unchecked m (start - 1) in
  if (s <? 0) || (len a <=? s) || (len a <? end_) || (end_ <? s) then out_of_bounds
  else slice a s end_.
(** 42-48 *)
Definition prim_char_at (m : mode) (a : string) (idx : Z) : string :=
  let i := unchecked m (idx - 1) in
  if (i <? 0) || (len a <=? i) then out_of_bounds else slice a i (i + 1).

(** The character classes on bytes, as in RPython: isspace is tab, newline, vertical
    tab, form feed, return and space; isalpha and isdigit are the ASCII ones. *)
Definition in_range (c : ascii) (lo hi : nat) : bool :=
  Nat.leb lo (nat_of_ascii c) && Nat.leb (nat_of_ascii c) hi.
Definition is_space (c : ascii) : bool := in_range c 9 13 || in_range c 32 32.
Definition is_alpha (c : ascii) : bool := in_range c 65 90 || in_range c 97 122.
Definition is_digit (c : ascii) : bool := in_range c 48 57.
(** 55-88: isWhiteSpace, isLetters, isDigits: the loop, then the emptiness test. *)
Fixpoint all_chars (p : ascii -> bool) (s : string) : bool :=
  match s with
  | EmptyString => true
  | String c t => if p c then all_chars p t else false
  end.
Definition prim_all (p : ascii -> bool) (s : string) : bool :=
  if all_chars p s then 0 <? len s else false.
(** string_primitives.py 15-16 and symbol_primitives.py 7-8, with the symbol table. *)
Definition prim_as_symbol (t : symtab) (s : string) : nat * symtab := symbol_for t s.
Definition prim_as_string (t : symtab) (id : nat) : option string :=
  match find (fun p => Nat.eqb (snd p) id) (st_map t) with Some p => Some (fst p) | None => None end.
