(** Reports of syntax errors (som/compiler/parse_error.py), with Python's % formatting, under plain
    Python. *)
From Coq Require Import ZArith Bool String Ascii List.
From Verif Require Import Base LexModel LexSpec NtxModel.
Import ListNotations.
Open Scope nat_scope.
Open Scope list_scope.

(** * Python's string % dict *)
(** What the dictionary holds. *)
Inductive obj := PyText (t : text) | PyInt (z : Z).
(** Where the scan of the format is: in plain text, right after %, inside the name in parentheses
    (nesting, name so far in reverse), or behind it (phase, characters so far). *)
Inductive phase := Flags | Width | WidthDone | Dot | Precision | PrecisionDone | Modified.
Inductive fstate := Plain | Begun | Key (depth : nat) (acc : text) | Spec (ph : phase) (acc : text).
(** What a character is in a phase: part of the specification, a * (width or precision is an
    argument), or the conversion. *)
Inductive part := Next (ph : phase) | Star (ph : phase) | Conversion.
Definition one_of (c : ascii) (s : string) : bool := existsb (Ascii.eqb c) (chars s).
Definition part_of (ph : phase) (c : ascii) : part :=
  let modifier := if one_of c "hlL" then Next Modified else Conversion in
  let dot := if one_of c "." then Next Dot else modifier in
  match ph with
  | Flags => if one_of c "-+ #0" then Next Flags else if one_of c "*" then Star WidthDone
             else if one_of c "123456789" then Next Width else dot
  | Width => if one_of c "0123456789" then Next Width else dot
  | WidthDone => dot
  | Dot => if one_of c "*" then Star PrecisionDone else if one_of c "0123456789" then Next Precision else modifier
  | Precision => if one_of c "0123456789" then Next Precision else modifier
  | PrecisionDone => modifier
  | Modified => Conversion
  end.

Section Format.
Variable lookup : text -> option obj.
(** Conversions other than plain %s and %d: whatever Python answers. *)
Variable other : text -> ascii -> obj -> res text.
Definition convert (spec : text) (c : ascii) (o : obj) : res text :=
  match spec, o with
  | [], PyText t => if Ascii.eqb c "s" then Ok t else other spec c o
  | [], PyInt z => if one_of c "sd" then Ok (py_str z) else other spec c o
  | _, _ => other spec c o
  end.
(** The formatting loop of CPython (unicode_format).  [arg] is the argument still to be used: a name
    in parentheses sets it, a conversion or a * uses it up.  Simplification: widths and precisions too
    large for Python are not rejected. *)
Fixpoint format (st : fstate) (arg : option obj) (s : text) : res text :=
  match s with
  | [] => match st with Plain => Ok [] | _ => Err ValueError end
  | c :: s =>
      let spec ph acc :=
        match part_of ph c with
        | Next ph => format (Spec ph (acc ++ [c])) arg s
        | Star ph => match arg with
                     | Some (PyInt _) => format (Spec ph (acc ++ [c])) None s
                     | _ => Err TypeError
                     end
        | Conversion =>
            if Ascii.eqb c "%" then r <- format Plain arg s ;; Ok (c :: r)
            else match arg with
                 | None => Err TypeError
                 | Some o => t <- convert acc c o ;; r <- format Plain None s ;; Ok (t ++ r)
                 end
        end in
      match st with
      | Plain => if Ascii.eqb c "%" then format Begun arg s else r <- format Plain arg s ;; Ok (c :: r)
      | Begun => if Ascii.eqb c "(" then format (Key 0 []) arg s else spec Flags []
      | Key d acc =>
          if Ascii.eqb c ")" then
            match d with
            | O => match lookup (rev acc) with
                   | Some o => format (Spec Flags []) (Some o) s
                   | None => Err KeyError
                   end
            | S d => format (Key d (c :: acc)) arg s
            end
          else if Ascii.eqb c "(" then format (Key (S d) (c :: acc)) arg s
          else format (Key d (c :: acc)) arg s
      | Spec ph acc => spec ph acc
      end
  end.
End Format.

(** * Symbols *)
(** symbol.py 2-35, 58-62 *)
Definition symbol_as_str (s : sym) : text :=
  chars match s with
  | NONE => "NONE" | Integer => "Integer" | Double => "Double" | Not => "Not" | And => "And" | Or => "Or"
  | LexModel.Star => "Star" | Div => "Div" | Mod => "Mod" | Plus => "Plus" | Minus => "Minus" | Equal => "Equal"
  | More => "More" | Less => "Less" | Comma => "Comma" | At => "At" | Per => "Per" | NewBlock => "NewBlock"
  | EndBlock => "EndBlock" | Colon => "Colon" | Period => "Period" | Exit => "Exit" | Assign => "Assign"
  | NewTerm => "NewTerm" | EndTerm => "EndTerm" | Pound => "Pound" | Primitive => "Primitive"
  | Separator => "Separator" | STString => "STString" | Identifier => "Identifier" | Keyword => "Keyword"
  | KeywordSequence => "KeywordSequence" | OperatorSequence => "OperatorSequence"
  end%string.
(** parse_error.py 14-19; the symbols from STString on are the last five. *)
Definition is_printable_symbol (s : sym) : bool :=
  match s with
  | Integer | Double | STString | Identifier | Keyword | KeywordSequence | OperatorSequence => true
  | _ => false
  end.

(** * Errors *)
(** parser.py 58-69: the parser as far as an error looks at it: the lexer, the file name, the
    current symbol and its text. *)
Record parser := { p_lexer : lexer; p_file : text; p_sym : sym; p_text : text }.
(** lexer.py 254-255 get_raw_buffer: _buf, the line read last.  It ends where the stream stands. *)
Definition raw_buffer (st : lexer) : text :=
  firstn (l_len st) (skipn (s_pos (l_in st) - l_len st) (s_string (l_in st))).
(** The expected symbol of a ParseError, or the list of a ParseErrorSymList. *)
Inductive expected := One (s : sym) | OneOf (l : list sym).
(** parse_error.py 5-12, 44-46 *)
Record parse_error := { e_message : text; e_line : nat; e_column : nat; e_text : text; e_raw : text;
                        e_file : text; e_expected : expected; e_found : sym }.
Definition ParseError (message : text) (x : expected) (p : parser) : parse_error :=
  {| e_message := message; e_line := l_line (p_lexer p); e_column := current_column (p_lexer p);
     e_text := p_text p; e_raw := raw_buffer (p_lexer p); e_file := p_file p; e_expected := x;
     e_found := p_sym p |}.
(** ", ".join *)
Fixpoint join (l : list text) : text :=
  match l with [] => [] | [t] => t | t :: l => t ++ chars ", " ++ join l end.
(** parse_error.py 21-22, 48-49 *)
Definition expected_sym_str (x : expected) : text :=
  match x with One s => symbol_as_str s | OneOf l => join (map symbol_as_str l) end.
(** parse_error.py 26-29 *)
Definition found_str (e : parse_error) : text :=
  if is_printable_symbol (e_found e)
  then symbol_as_str (e_found e) ++ chars " (" ++ e_text e ++ chars ")" else symbol_as_str (e_found e).
(** parse_error.py 34-40 *)
Definition entry (e : parse_error) (key : text) : option obj :=
  let is (k : string) := if list_eq_dec ascii_dec key (chars k) then true else false in
  if is "file"%string then Some (PyText (e_file e))
  else if is "line"%string then Some (PyInt (Z.of_nat (e_line e)))
  else if is "column"%string then Some (PyInt (Z.of_nat (e_column e)))
  else if is "expected"%string then Some (PyText (expected_sym_str (e_expected e)))
  else if is "found"%string then Some (PyText (found_str e))
  else None.
(** parse_error.py 24-40 __str__.  The formatted text is what main.py 10-14 and shell.py 49-50 print. *)
Definition error_str (other : text -> ascii -> obj -> res text) (e : parse_error) : res text :=
  format (entry e) other Plain None
    (chars "%(file)s:%(line)d:%(column)d: error: " ++ e_message e ++ chars ": " ++ e_raw e).

(** * Where errors are raised *)
(** parser.py 157-162 _expect *)
Definition err_expect (s : sym) (p : parser) : parse_error :=
  ParseError (chars "Unexpected symbol. Expected %(expected)s, but found %(found)s") (One s) p.
(** parser.py 164-171 _expect_one_of *)
Definition err_expect_one_of (l : list sym) (p : parser) : parse_error :=
  ParseError (chars "Unexpected symbol. Expected one of %(expected)s, but found %(found)s") (OneOf l) p.
(** parser.py 131-136 *)
Definition err_super_class (name : text) (p : parser) : parse_error :=
  ParseError (chars "Super class " ++ name ++ chars " could not be loaded") (One NONE) p.
(** parser.py 279-283, 320-325 *)
Definition err_double (x : sym) (p : parser) : parse_error :=
  ParseError (chars "Could not parse double. Expected a number but got '" ++ p_text p ++ chars "'") (One x) p.
(** parser.py 305-310 *)
Definition err_integer (p : parser) : parse_error :=
  ParseError (chars "Could not parse integer. Expected a number but got '" ++ p_text p ++ chars "'") (One NONE) p.
(** compiler/ast/parser.py 105-110 *)
Definition err_assignment (p : parser) : parse_error :=
  ParseError (chars "Assignments should always target variables or fields, but found instead a %(found)s")
    (One Identifier) p.
(** compiler/ast/parser.py 533-543, for self and super *)
Definition err_pseudo (name : text) (p : parser) : parse_error :=
  ParseError (chars "It is not possible to write to `" ++ name ++ chars "`, it is a pseudo variable") (One NONE) p.
(** compiler/method_generation_context.py 57-59, 75-77 *)
Definition err_argument (name : text) (p : parser) : parse_error :=
  ParseError (chars "The argument " ++ name ++ chars " was already defined.") (One NONE) p.
Definition err_local (name : text) (p : parser) : parse_error :=
  ParseError (chars "The local " ++ name ++ chars " was already defined.") (One NONE) p.
(** compiler/bc/method_generation_context.py 815-822 *)
Definition err_jump (bytecode : text) (offset : Z) (p : parser) : parse_error :=
  ParseError (chars "The jump_offset for the " ++ bytecode ++ chars " bytecode is out of range: " ++ py_str offset)
    (One NONE) p.
