(** What the tokens of a source text are, without reference to the lexer. *)
From Coq Require Import Bool String Ascii List Arith.
From Verif Require Import LexModel.
Import ListNotations.
Open Scope list_scope.

(** * Character classes *)
Definition code (c : ascii) := nat_of_ascii c.
Definition white (c : ascii) : Prop := 9 <= code c <= 13 \/ code c = 32.
Definition letter (c : ascii) : Prop := 65 <= code c <= 90 \/ 97 <= code c <= 122.
Definition digit (c : ascii) : Prop := 48 <= code c <= 57.
Definition word_char (c : ascii) : Prop := letter c \/ digit c \/ c = "_"%char.
Definition chars (s : string) : text := list_ascii_of_string s.
Definition operators : list (ascii * sym) :=
  [("~", Not); ("&", And); ("|", Or); ("*", Star); ("/", Div); ("\", Mod); ("+", Plus);
   ("=", Equal); (">", More); ("<", Less); (",", Comma); ("@", At); ("%", Per); ("-", Minus)]%char.
Definition op_char (c : ascii) : Prop := exists k, In (c, k) operators.
Definition punctuation : list (ascii * sym) :=
  [("[", NewBlock); ("]", EndBlock); ("(", NewTerm); (")", EndTerm); ("#", Pound); ("^", Exit);
   (".", Period); (":", Colon)]%char.
Definition quote2 : ascii := """"%char.

(** * Separators: white space and comments *)
Inductive gap : text -> Prop :=
| gap_nil : gap []
| gap_white c g : white c -> gap g -> gap (c :: g)
| gap_comment body g : ~ In quote2 body -> gap g -> gap (quote2 :: body ++ quote2 :: g).
(** What may follow the last token: separators, possibly an unclosed comment. *)
Inductive tail_gap : text -> Prop :=
| tg_gap g : gap g -> tail_gap g
| tg_open g body : gap g -> ~ In quote2 body -> tail_gap (g ++ quote2 :: body).

(** * String literals: the characters between the quotes and the string they denote *)
Definition escapes : list (ascii * ascii) :=
  [("t", ascii_of_nat 9); ("b", ascii_of_nat 8); ("n", ascii_of_nat 10); ("r", ascii_of_nat 13);
   ("f", ascii_of_nat 12); ("0", ascii_of_nat 0); ("'", "'"); ("\", "\")]%char.
Inductive denotes : text -> text -> Prop :=
| den_nil : denotes [] []
| den_plain c raw s : c <> "'"%char -> c <> "\"%char -> denotes raw s -> denotes (c :: raw) (c :: s)
| den_escape e c raw s : In (e, c) escapes -> denotes raw s -> denotes ("\"%char :: e :: raw) (c :: s)
| den_unknown e raw s :     (* an unknown escape stands for nothing *)
    (forall c, ~ In (e, c) escapes) -> denotes raw s -> denotes ("\"%char :: e :: raw) s.

(** The text after the opening quote when there is no closing one. *)
Inductive unclosed : text -> Prop :=
| un_nil : unclosed []
| un_plain c raw : c <> "'"%char -> c <> "\"%char -> unclosed raw -> unclosed (c :: raw)
| un_escape e raw : unclosed raw -> unclosed ("\"%char :: e :: raw).
(** ... and when the text ends after a backslash. *)
Inductive half_escape : text -> Prop :=
| he_nil : half_escape ["\"%char]
| he_plain c raw : c <> "'"%char -> c <> "\"%char -> half_escape raw -> half_escape (c :: raw)
| he_escape e raw : half_escape raw -> half_escape ("\"%char :: e :: raw).

(** * Tokens and their spellings *)
Definition word (w : text) : Prop := exists a t, w = a :: t /\ letter a /\ Forall word_char t.
(** The words the lexer takes to begin with the keyword "primitive". *)
Definition reserved (w : text) : Prop :=
  exists r, w = chars "primitive" ++ r /\ (r = [] \/ exists r', r = "_"%char :: r').
Definition digits (d : text) : Prop := d <> [] /\ Forall digit d.
Definition dash (c : ascii) : Prop := c = "-"%char.

Inductive spells : token -> text -> Prop :=
| sp_punctuation c k : In (c, k) punctuation -> spells (k, [c]) [c]
| sp_assign : spells (Assign, chars ":=") (chars ":=")
| sp_operator c k : In (c, k) operators -> spells (k, [c]) [c]
| sp_operators t :
    2 <= length t -> Forall op_char t -> (forall r, t <> chars "----" ++ r) -> spells (OperatorSequence, t) t
| sp_separator t : 4 <= length t -> Forall dash t -> spells (Separator, t) t
| sp_primitive : spells (Primitive, chars "primitive") (chars "primitive")
| sp_identifier w : word w -> ~ reserved w -> spells (Identifier, w) w
| sp_keyword w : word w -> ~ reserved w -> spells (Keyword, w ++ chars ":") (w ++ chars ":")
| sp_keywords w a k :
    word w -> ~ reserved w -> letter a -> Forall (fun c => letter c \/ c = ":"%char) k ->
    spells (KeywordSequence, w ++ chars ":" ++ a :: k) (w ++ chars ":" ++ a :: k)
| sp_integer d : digits d -> spells (Integer, d) d
| sp_double d e : digits d -> digits e -> spells (Double, d ++ chars "." ++ e) (d ++ chars "." ++ e)
| sp_string raw s : denotes raw s -> spells (STString, s) (chars "'" ++ raw ++ chars "'").

(** * Where a token ends: [ends_before t rest] says that the token is not continued by the
    text after it. *)
Definition not_next (p : ascii -> Prop) (rest : text) : Prop :=
  match rest with [] => True | c :: _ => ~ p c end.
Definition ends_before (t : token) (rest : text) : Prop :=
  match fst t with
  | Identifier => not_next (fun c => word_char c \/ c = ":"%char) rest
  | Keyword => not_next letter rest
  | KeywordSequence => not_next (fun c => letter c \/ c = ":"%char) rest
  | Primitive => not_next (fun c => letter c \/ digit c) rest
  | Integer => not_next digit rest /\
      match rest with p :: d :: _ => ~ (p = "."%char /\ digit d) | _ => True end
  | Double => not_next digit rest
  | Separator => not_next dash rest
  | Colon => not_next (fun c => c = "="%char) rest
  | OperatorSequence | Not | And | Or | Star | Div | Mod | Plus | Minus | Equal | More | Less
  | Comma | At | Per => not_next op_char rest
  | _ => True
  end.

(** [tokens s ts rest]: [s] begins with the tokens [ts], each preceded by separators and
    not continued by what follows it; [rest] is the text after them. *)
Inductive tokens : text -> list token -> text -> Prop :=
| tks_nil rest : tokens rest [] rest
| tks_cons g t raw s ts rest :
    gap g -> spells t raw -> ends_before t s -> tokens s ts rest ->
    tokens (g ++ raw ++ s) (t :: ts) rest.

(** * Reading with the lexer *)
(** The next [n] tokens of a lexer with enough fuel. *)
Fixpoint read_tokens (fuel n : nat) (st : lexer) : Base.res (list token * lexer) :=
  match n with
  | O => Base.Ok ([], st)
  | S n' => Base.bind (next_token fuel st) (fun r =>
            Base.bind (read_tokens fuel n' (snd r)) (fun q => Base.Ok (fst r :: fst q, snd q)))
  end.
Definition end_token : token := (NONE, [zero]).

(** * Reading lines *)
(** [n] calls of readline. *)
Fixpoint read_lines (n : nat) (st : stream) : list text * stream :=
  match n with
  | O => ([], st)
  | S n' => let (l, st1) := readline st in let (ls, st2) := read_lines n' st1 in (l :: ls, st2)
  end.
(** The lines of a text, each with its newline. *)
Fixpoint lines (s : text) : list text :=
  match s with
  | [] => []
  | c :: t => if Ascii.eqb c (ascii_of_nat 10) then [c] :: lines t
              else match lines t with [] => [[c]] | l :: ls => (c :: l) :: ls end
  end.

(** * Peeking: what a client of the lexer does, and what it should see. *)
Inductive call := GetSym | Peek.
Inductive answer := AToken (t : token) | ASym (s : sym).
(** No two peeks without a get_sym in between. *)
Fixpoint no_double_peek (peeked : bool) (h : list call) : Prop :=
  match h with
  | [] => True
  | GetSym :: h' => no_double_peek false h'
  | Peek :: h' => peeked = false /\ no_double_peek true h'
  end.
(** The answers of a client's calls when the token stream is [ts]. *)
Fixpoint expected (ts : nat -> token) (pos : nat) (h : list call) : list answer :=
  match h with
  | [] => []
  | GetSym :: h' => AToken (ts pos) :: expected ts (S pos) h'
  | Peek :: h' => ASym (fst (ts pos)) :: expected ts pos h'
  end.
Fixpoint run_calls (fuel : nat) (x : lexer_obj) (h : list call) : Base.res (list answer) :=
  match h with
  | [] => Base.Ok []
  | GetSym :: h' => Base.bind (get_sym fuel x) (fun r =>
      Base.bind (run_calls fuel (snd r) h') (fun q => Base.Ok (AToken (fst r) :: q)))
  | Peek :: h' => Base.bind (peek fuel x) (fun r =>
      Base.bind (run_calls fuel (snd r) h') (fun q => Base.Ok (ASym (fst r) :: q)))
  end.

(** * Rendering *)
(** A token with a spelling and the separators after it. *)
Record item := { i_token : token; i_raw : text; i_gap : text }.
Definition item_ok (i : item) : Prop :=
  spells (i_token i) (i_raw i) /\ gap (i_gap i) /\ i_gap i <> [].
Definition render (lead : text) (l : list item) : text :=
  lead ++ concat (map (fun i => i_raw i ++ i_gap i) l).
(** Escaping a string: quotes and backslashes get a backslash. *)
Definition escape (s : text) : text :=
  concat (map (fun c => if (Ascii.eqb c "'" || Ascii.eqb c "\")%char then ["\"%char; c] else [c]) s).
Definition is_get (c : call) : bool := match c with GetSym => true | Peek => false end.
(** A (line, column) pair of a text as a character offset. *)
Definition offset (s : text) (line column : nat) : nat :=
  length (concat (firstn (line - 1) (lines s))) + (column - 1).
