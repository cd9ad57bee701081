(** The lexer (som/compiler/lexer.py) and the source stream (rlib/string_stream.py).
    Texts are lists of characters; source characters are bytes. *)
From Coq Require Import ZArith Bool String Ascii List Floats.SpecFloat.
From Verif Require Import Base TxtModel.
Import ListNotations.
Open Scope nat_scope.
Open Scope list_scope.

Notation text := (list ascii).
Definition newline : ascii := ascii_of_nat 10.
Definition nul : ascii := zero.

(** * StringStream (rlib/string_stream.py 38-78) *)
(** 39-42 *)
Record stream := { s_string : text; s_pos : nat }.
Definition new_stream (s : text) : stream := {| s_string := s; s_pos := 0 |}.
(** 63-69: read(n) for n >= 0. *)
Definition s_read (st : stream) (n : nat) : text * stream :=
  let data := firstn n (skipn (s_pos st) (s_string st)) in
  (data, {| s_string := s_string st; s_pos := s_pos st + length data |}).
(** 72-74: the index of the first newline from [pos] on, relative to [pos]. *)
Fixpoint find_newline (s : text) : option nat :=
  match s with
  | [] => None
  | c :: t => if Ascii.eqb c newline then Some 0
              else match find_newline t with Some i => Some (S i) | None => None end
  end.
(** 71-78 *)
Definition readline (st : stream) : text * stream :=
  match find_newline (skipn (s_pos st) (s_string st)) with
  | Some i => s_read st (i + 1)
  | None => if Nat.eqb (s_pos st) 0
            then (s_string st, {| s_string := s_string st; s_pos := length (s_string st) |})
            else s_read st (length (s_string st) - s_pos st)
  end.
(** 53-61: seek; positions are clipped at 0.  An error for any other [whence]. *)
Definition s_seek (st : stream) (offset : Z) (whence : Z) : res stream :=
  let at_ z := Ok {| s_string := s_string st; s_pos := Z.to_nat (Z.max 0 z) |} in
  if (whence =? 0)%Z then at_ offset
  else if (whence =? 1)%Z then at_ (Z.of_nat (s_pos st) + offset)%Z
  else if (whence =? 2)%Z then at_ (Z.of_nat (length (s_string st)) - 1 + offset)%Z
  else Err PyException.

(** * Tokens (som/compiler/symbol.py 2-35) *)
Inductive sym :=
| NONE | Integer | Double | Not | And | Or | Star | Div | Mod | Plus | Minus | Equal | More
| Less | Comma | At | Per | NewBlock | EndBlock | Colon | Period | Exit | Assign | NewTerm
| EndTerm | Pound | Primitive | Separator | STString | Identifier | Keyword
| KeywordSequence | OperatorSequence.
(** _sym and text after get_sym.  _symc is not read outside the lexer and left out. *)
Notation token := (sym * text)%type.

(** * The lexer's input side *)
(** lexer.py 9-21.  [l_cur] is _buf[_bufp:] (the buffer is only read from _bufp on),
    [l_len] the length of _buf. *)
Record lexer := {
  l_cur : text; l_bufp : nat; l_len : nat;
  l_line : nat; l_chars : nat; l_in : stream
}.
Definition new_lexer (s : text) : lexer :=
  {| l_cur := []; l_bufp := 0; l_len := 0; l_line := 0; l_chars := 0; l_in := new_stream s |}.

(** 331-332 and 300-301: _bufchar, _current_char. *)
Definition bufchar (st : lexer) (i : nat) : ascii := nth i (l_cur st) nul.
Definition cur (st : lexer) : ascii := bufchar st 0.
(** 303-304 *)
Definition end_of_buffer (st : lexer) : bool := match l_cur st with [] => true | _ => false end.
(** _bufp += n *)
Definition adv (st : lexer) (n : nat) : lexer :=
  {| l_cur := skipn n (l_cur st); l_bufp := l_bufp st + n; l_len := l_len st;
     l_line := l_line st; l_chars := l_chars st; l_in := l_in st |}.
(** 264-274: _fill_buffer; [false] is the answer -1.  Reading a StringStream raises no
    IOError. *)
Definition fill_buffer (st : lexer) : bool * lexer :=
  let (buf, s') := readline (l_in st) in
  match buf with
  | [] => (false, {| l_cur := []; l_bufp := l_bufp st; l_len := 0; l_line := l_line st;
                     l_chars := l_chars st + l_len st; l_in := s' |})
  | _ => (true, {| l_cur := buf; l_bufp := 0; l_len := length buf; l_line := S (l_line st);
                   l_chars := l_chars st + l_len st; l_in := s' |})
  end.
(** while self._end_of_buffer(): if self._fill_buffer() == -1: ...
    (117-119, 276-280, 285-287, 293-295.)  A successful fill leaves a non-empty rest, so the loop runs at most once. *)
Definition refill (st : lexer) : bool * lexer :=
  if end_of_buffer st then fill_buffer st else (true, st).

(** 282-287: _skip_white_space.  [fuel] bounds the rounds of a loop. *)
Fixpoint skip_white_space (fuel : nat) (st : lexer) : res lexer :=
  match fuel with
  | O => Err OutOfFuel
  | S f =>
      if is_space (cur st) then
        let (more, st') := refill (adv st 1) in
        if more then skip_white_space f st' else Ok st'
      else Ok st
  end.
(** 289-298: _skip_comment *)
Definition dquote : ascii := """"%char.
Fixpoint comment_loop (fuel : nat) (st : lexer) : res lexer :=
  match fuel with
  | O => Err OutOfFuel
  | S f =>
      let (more, st') := refill (adv st 1) in
      if more then
        if Ascii.eqb (cur st') dquote then Ok (adv st' 1) else comment_loop f st'
      else Ok st'
  end.
Definition skip_comment (fuel : nat) (st : lexer) : res lexer :=
  if Ascii.eqb (cur st) dquote then comment_loop fuel st else Ok st.

(** The loops that collect characters of one kind: the longest prefix of the rest of the
    buffer; the NUL at its end is of no such kind. *)
Fixpoint scan (p : ascii -> bool) (s : text) : text :=
  match s with [] => [] | c :: t => if p c then c :: scan p t else [] end.
Definition is_alnum (c : ascii) : bool := is_alpha c || is_digit c.
Definition is_word (c : ascii) : bool := is_alnum c || Ascii.eqb c "_".
Definition is_key (c : ascii) : bool := is_alpha c || Ascii.eqb c ":".

(** 306-323: _is_operator; the same characters as in vmobjects/symbol.py. *)
Definition is_operator (c : ascii) : bool :=
  (Ascii.eqb c "~" || Ascii.eqb c "&" || Ascii.eqb c "|" || Ascii.eqb c "*" || Ascii.eqb c "/"
   || Ascii.eqb c "\" || Ascii.eqb c "+" || Ascii.eqb c "=" || Ascii.eqb c ">" || Ascii.eqb c "<"
   || Ascii.eqb c "," || Ascii.eqb c "@" || Ascii.eqb c "%" || Ascii.eqb c "-")%char.

(** 28-47: _lex_number *)
Definition lex_number (st : lexer) : token * lexer :=
  let d1 := scan is_digit (l_cur st) in
  let st1 := adv st (length d1) in
  if Ascii.eqb (cur st1) "." && is_digit (bufchar st1 1) then
    let d2 := scan is_digit (skipn 1 (l_cur st1)) in
    ((Double, d1 ++ "."%char :: d2), adv st1 (S (length d2)))
  else ((Integer, d1), st1).

(** 325-329: _match *)
Definition match_ (s : sym) (st : lexer) : token * lexer := ((s, [cur st]), adv st 1).

(** 49-84: _lex_operator *)
Definition operator_sym (c : ascii) : sym :=
  (if Ascii.eqb c "~" then Not else if Ascii.eqb c "&" then And else if Ascii.eqb c "|" then Or
   else if Ascii.eqb c "*" then Star else if Ascii.eqb c "/" then Div else if Ascii.eqb c "\" then Mod
   else if Ascii.eqb c "+" then Plus else if Ascii.eqb c "=" then Equal else if Ascii.eqb c ">" then More
   else if Ascii.eqb c "<" then Less else if Ascii.eqb c "," then Comma else if Ascii.eqb c "@" then At
   else if Ascii.eqb c "%" then Per else Minus)%char.
Definition lex_operator (st : lexer) : token * lexer :=
  if is_operator (bufchar st 1) then
    let t := scan is_operator (l_cur st) in ((OperatorSequence, t), adv st (length t))
  else match_ (operator_sym (cur st)) st.

(** 86-107: _lex_escape_char: the character meant, none for an unknown escape. *)
Definition escape_char (c : ascii) : text :=
  (if Ascii.eqb c "t" then [ascii_of_nat 9]
   else if Ascii.eqb c "b" then [ascii_of_nat 8]
   else if Ascii.eqb c "n" then [ascii_of_nat 10]
   else if Ascii.eqb c "r" then [ascii_of_nat 13]
   else if Ascii.eqb c "f" then [ascii_of_nat 12]
   else if Ascii.eqb c "0" then [nul]
   else if Ascii.eqb c "'" then ["'"]
   else if Ascii.eqb c "\" then ["\"]
   else [])%char.
(** 109-119: _lex_string_char: the text it adds and the state after it. *)
Definition lex_string_char (st : lexer) : res (text * lexer) :=
  if Ascii.eqb (cur st) "\" then
    let st1 := adv st 1 in
    if end_of_buffer st1 then Err PyException
    else Ok (escape_char (cur st1), snd (refill (adv st1 1)))
  else Ok ([cur st], snd (refill (adv st 1))).
(** 121-130: _lex_string *)
Fixpoint lex_string_loop (fuel : nat) (st : lexer) (acc : text) : res (text * lexer) :=
  match fuel with
  | O => Err OutOfFuel
  | S f =>
      if Ascii.eqb (cur st) "'" then Ok (acc, adv st 1)
      else r <- lex_string_char st ;; lex_string_loop f (snd r) (acc ++ fst r)
  end.
Definition lex_string (fuel : nat) (st : lexer) : res (token * lexer) :=
  r <- lex_string_loop fuel (adv st 1) [] ;; Ok ((STString, fst r), snd r).

(** str.startswith on the rest of the buffer. *)
Fixpoint starts_with (p s : text) : bool :=
  match p, s with
  | [], _ => true
  | a :: p', b :: s' => Ascii.eqb a b && starts_with p' s'
  | _, [] => false
  end.
Definition PRIMITIVE : text := list_ascii_of_string "primitive".
Definition SEPARATOR : text := list_ascii_of_string "----".
(** 227-231: _next_word_in_buffer_is, used with "primitive" only *)
Definition next_word_is_primitive (st : lexer) : bool :=
  starts_with PRIMITIVE (l_cur st) && negb (is_alnum (bufchar st (length PRIMITIVE))).

(** 202-217: identifiers and keywords. *)
Definition lex_word (st : lexer) : token * lexer :=
  let w := scan is_word (l_cur st) in
  let st1 := adv st (length w) in
  if Ascii.eqb (cur st1) ":" then
    let st2 := adv st1 1 in
    if is_alpha (cur st2) then
      let k := scan is_key (l_cur st2) in
      ((KeywordSequence, w ++ ":"%char :: k), adv st2 (length k))
    else ((Keyword, w ++ [":"%char]), st2)
  else ((Identifier, w), st1).

(** 156-225: the token that starts at the current character. *)
Definition lex_token (fuel : nat) (st : lexer) : res (token * lexer) :=
  let c := cur st in
  (if Ascii.eqb c "'" then lex_string fuel st
   else if Ascii.eqb c "[" then Ok (match_ NewBlock st)
   else if Ascii.eqb c "]" then Ok (match_ EndBlock st)
   else if Ascii.eqb c ":" then
     if Ascii.eqb (bufchar st 1) "="
     then Ok ((Assign, [":"; "="]), adv st 2)
     else Ok ((Colon, [":"]), adv st 1)
   else if Ascii.eqb c "(" then Ok (match_ NewTerm st)
   else if Ascii.eqb c ")" then Ok (match_ EndTerm st)
   else if Ascii.eqb c "#" then Ok (match_ Pound st)
   else if Ascii.eqb c "^" then Ok (match_ Exit st)
   else if Ascii.eqb c "." then Ok (match_ Period st)
   else if Ascii.eqb c "-" then
     if starts_with SEPARATOR (l_cur st)
     then let t := scan (Ascii.eqb "-") (l_cur st) in Ok ((Separator, t), adv st (length t))
     else Ok (lex_operator st)
   else if is_operator c then Ok (lex_operator st)
   else if next_word_is_primitive st then Ok ((Primitive, PRIMITIVE), adv st (length PRIMITIVE))
   else if is_alpha c then Ok (lex_word st)
   else if is_digit c then Ok (lex_number st)
   else Ok ((NONE, [c]), st))%char.

(** 140-225: get_sym without the peek case. *)
Fixpoint next_token (fuel : nat) (st : lexer) : res (token * lexer) :=
  match fuel with
  | O => Err OutOfFuel
  | S f =>
      let (more, st0) := refill st in
      if negb more then Ok ((NONE, [nul]), st0)
      else
        st1 <- skip_white_space fuel st0 ;;
        st2 <- skip_comment fuel st1 ;;
        if negb (end_of_buffer st2) && negb (is_space (cur st2)) && negb (Ascii.eqb (cur st2) dquote)
        then lex_token fuel st2
        else next_token f st2
  end.

(** * get_sym and peek *)
(** lexer.py 13-19: the current token, peek_done and the token peeked at. *)
Record lexer_obj := { x_lex : lexer; x_tok : token; x_peek_done : bool; x_next : token }.
Definition new_lexer_obj (s : text) : lexer_obj :=
  {| x_lex := new_lexer s; x_tok := (NONE, []); x_peek_done := false; x_next := (NONE, []) |}.
(** 132-138, then as above *)
Definition get_sym (fuel : nat) (x : lexer_obj) : res (token * lexer_obj) :=
  if x_peek_done x
  then Ok (x_next x, {| x_lex := x_lex x; x_tok := x_next x; x_peek_done := false; x_next := x_next x |})
  else r <- next_token fuel (x_lex x) ;;
       Ok (fst r, {| x_lex := snd r; x_tok := fst r; x_peek_done := false; x_next := x_next x |}).
(** 233-252 *)
Definition peek (fuel : nat) (x : lexer_obj) : res (sym * lexer_obj) :=
  if x_peek_done x then Err ValueError
  else r <- get_sym fuel x ;;
       Ok (fst (fst r), {| x_lex := x_lex (snd r); x_tok := x_tok x; x_peek_done := true; x_next := fst r |}).

(** 261-262: get_number_of_characters_read, also the offset in get_source_coordinate. *)
Definition chars_read (st : lexer) : nat := l_chars st + l_bufp st.
(** 257-258 *)
Definition current_column (st : lexer) : nat := l_bufp st + 1.
