(** The theorems about the lexer and the source stream. *)
From Coq Require Import ZArith Bool String Ascii List Lia Arith.
From Verif Require Import Base LexModel LexSpec LexProofs.
Import ListNotations.
Open Scope nat_scope.
Open Scope list_scope.

(** * C33 *)
(** The tokens read from a text are exactly those the grammar finds in it. *)
Theorem C33_tokens_iff_grammar : forall (s : text) (ts : list token) fuel, length s + 1 < fuel ->
  (exists rest, tokens s ts rest) <->
  (exists st, read_tokens fuel (length ts) (new_lexer s) = Ok (ts, st)) /\ Forall (fun t => fst t <> NONE) ts.
Proof. intros s ts fuel H. now apply grammar_iff. Qed.
Print Assumptions C33_tokens_iff_grammar.

(** The grammar is unambiguous. *)
Theorem C33_tokens_unique : forall s ts rest ts' rest',
  tokens s ts rest -> tokens s ts' rest' -> length ts = length ts' -> ts = ts' /\ rest = rest'.
Proof. exact tokens_unique. Qed.
Print Assumptions C33_tokens_unique.

(** Rendering tokens with any separators between them and reading them again; after the
    last token come end-of-input tokens, as often as one reads. *)
Theorem C33_round_trip : forall lead (l : list item) n fuel,
  gap lead -> Forall item_ok l -> length (render lead l) + 1 < fuel ->
  exists st, read_tokens fuel (length l + n) (new_lexer (render lead l))
             = Ok (map i_token l ++ repeat end_token n, st).
Proof.
  intros lead l n fuel G F L.
  pose proof (render_tokens l F lead G) as Tk.
  destruct (read_tokens_ok _ fuel _ _ _ Tk (new_lexer (render lead l)) (inv_new _) eq_refl L)
    as (st & A & B & C & _).
  rewrite map_length in A.
  destruct (read_end_n (render lead l) fuel n st B) as (st2 & D).
  - rewrite C. constructor. now apply render_end.
  - rewrite C. apply tokens_len in Tk. lia.
  - exists st2. now apply (read_tokens_app fuel _ _ _ _ st).
Qed.
Print Assumptions C33_round_trip.

(** Where the lexer reports the end of the input nothing but separators is left. *)
Theorem C33_end_means_nothing_left : forall s ts fuel st, length s + 1 < fuel ->
  read_tokens fuel (length ts + 1) (new_lexer s) = Ok (ts ++ [end_token], st) ->
  Forall (fun t => fst t <> NONE) ts -> ~ In zero s ->
  exists rest, tokens s ts rest /\ tail_gap rest.
Proof.
  intros s ts fuel st L H F Z.
  assert (K : exists st1, read_tokens fuel (length ts) (new_lexer s) = Ok (ts, st1) /\
     next_token fuel st1 = Ok (end_token, st)).
  { clear - H. revert H. generalize (new_lexer s). induction ts as [|t ts IH]; intros st0 H.
    - exists st0. split; [reflexivity|]. cbn [length Nat.add read_tokens] in H.
      destruct (next_token fuel st0) as [[t' st1]|e]; [|discriminate]. cbn in H.
      apply ok_eq_inv in H. now injection H as -> ->.
    - cbn [length Nat.add read_tokens app] in H.
      destruct (next_token fuel st0) as [[t' st1]|e] eqn:N; [|discriminate]. cbn [bind fst snd] in H.
      destruct (read_tokens fuel (length ts + 1) st1) as [[ts1 st2]|e] eqn:K; [|discriminate].
      cbn [bind fst snd] in H. apply ok_eq_inv in H. injection H as -> -> ->.
      destruct (IH st1 K) as (st3 & A & B). exists st3. cbn [length read_tokens]. rewrite N. cbn [bind fst snd].
      rewrite A. auto. }
  destruct K as (st1 & A & B).
  assert (Tk : tokens s ts (R st1)) by exact (read_tokens_inv s fuel _ _ ts st1 (inv_new s) L A F).
  exists (R st1). split; [assumption|].
  destruct (read_tokens_ok s fuel s ts _ Tk (new_lexer s) (inv_new s) eq_refl L) as (st1' & A' & I' & _).
  rewrite A in A'. apply ok_eq_inv in A'. injection A' as <-.
  pose proof (tokens_len _ _ _ Tk).
  destruct (next_cases s fuel st1 end_token st I' ltac:(lia) B)
    as [(_ & _ & G) | [(g & raw & _ & _ & Sp & _) | (g & c & E & Q & _ & _ & Hd & _)]]; [assumption| |].
  - exfalso. exact (spells_not_none _ _ Sp eq_refl).
  - exfalso. apply Z. injection E as <-.
    assert (In nul (R st)). { destruct (R st); [discriminate|]. injection Hd as ->. now left. }
    assert (In nul (R st1)). { rewrite Q. apply in_or_app. now right. }
    clear - Tk H2. induction Tk as [|g' t raw s' ts' r G Sp En Tk IH]; [assumption|].
    apply in_or_app. right. apply in_or_app. right. now apply IH.
Qed.
Print Assumptions C33_end_means_nothing_left.

(** * C34 *)
(** A literal is read as the string it denotes, whatever escapes were chosen. *)
Theorem C34_literal : forall raw s rest fuel, denotes raw s ->
  let src := chars "'" ++ raw ++ chars "'" ++ rest in length src + 1 < fuel ->
  exists st, next_token fuel (new_lexer src) = Ok ((STString, s), st) /\
             chars_read st = length raw + 2.
Proof.
  intros raw s rest fuel D src L.
  assert (Tk : tokens src [(STString, s)] rest).
  { replace src with ([] ++ (chars "'" ++ raw ++ chars "'") ++ rest).
    - constructor; [constructor|now constructor|exact I|constructor].
    - unfold src. cbn [app]. now rewrite <- !app_assoc. }
  destruct (position src fuel _ rest Tk ltac:(discriminate) L) as (st & A & B & _).
  exists st. cbn [length read_tokens] in A.
  destruct (next_token fuel (new_lexer src)) as [[t st1]|e]; [|discriminate].
  cbn in A. apply ok_eq_inv in A. injection A as -> ->. split; [reflexivity|].
  unfold src in B. rewrite !app_length in B. cbn in B. lia.
Qed.
Print Assumptions C34_literal.

(** Every string has a literal: quotes and backslashes escaped, all else as it is. *)
Theorem C34_every_string : forall s rest fuel,
  let src := chars "'" ++ escape s ++ chars "'" ++ rest in length src + 1 < fuel ->
  exists st, next_token fuel (new_lexer src) = Ok ((STString, s), st).
Proof.
  intros s rest fuel src L.
  destruct (C34_literal (escape s) s rest fuel (escape_denotes s) L) as (st & A & _). eauto.
Qed.
Print Assumptions C34_every_string.

(** * C35 *)
(** Reading ends, within one token per character, with the end token, a character that
    starts no token or the error for a half escape; unless the text has an unclosed string. *)
Theorem C35_terminates_partial : forall s : text,
  ~ (exists ts g raw, tokens s ts (g ++ chars "'" ++ raw) /\ gap g /\ unclosed raw) ->
  exists n, n <= length s + 1 /\ forall fuel, length s + 1 < fuel ->
    (exists ts t st, read_tokens fuel n (new_lexer s) = Ok (ts ++ [t], st) /\ fst t = NONE) \/
    read_tokens fuel n (new_lexer s) = Err PyException.
Proof.
  intros s N. destruct (terminates s (length s) (new_lexer s) (inv_new s)) as
    [(k & ts & t & K1 & K2 & K3 & K4) | [(k & K1 & K2) | H]].
  - rewrite R_new. lia.
  - rewrite R_new in *. exists (S k). split; [lia|]. intros fuel L. left. exists ts, t.
    destruct (K4 fuel L) as (st & A). exists st. auto.
  - rewrite R_new in *. exists (S k). split; [lia|]. intros fuel L. right. auto.
  - rewrite R_new in H. contradiction.
Qed.
Print Assumptions C35_terminates_partial.

(** At an unclosed string the lexer never answers, whatever number of steps it gets. *)
Theorem C35_unclosed_string_diverges : forall s ts g raw,
  tokens s ts (g ++ chars "'" ++ raw) -> gap g -> unclosed raw ->
  forall fuel, read_tokens fuel (length ts + 1) (new_lexer s) = Err OutOfFuel.
Proof. intros s ts g raw A B C fuel. exact (unclosed_diverges s ts g raw A B C fuel). Qed.
Print Assumptions C35_unclosed_string_diverges.

Theorem C35_termination_refuted :
  ~ (forall s : text, exists n fuel r, read_tokens fuel n (new_lexer s) = r /\ r <> Err OutOfFuel /\
       (r = Err PyException \/ exists ts t st, r = Ok (ts ++ [t], st) /\ fst t = NONE)).
Proof.
  intros H. destruct (H (chars "x 'abc")) as (n & fuel & r & A & B & C).
  assert (Tk : tokens (chars "x 'abc") [(Identifier, chars "x")] (chars " " ++ chars "'" ++ chars "abc")).
  { change (chars "x 'abc") with ([] ++ chars "x" ++ (chars " " ++ chars "'" ++ chars "abc")).
    constructor; [constructor| | |constructor].
    - apply sp_identifier.
      + exists "x"%char, []. split; [reflexivity|]. split; [right; cbn; lia|constructor].
      + intros (q & Q & _). discriminate.
    - cbn. intros [K | K]; [|discriminate K]. now apply is_word_iff in K. }
  assert (G : gap (chars " ")). { constructor; [right; reflexivity|constructor]. }
  assert (U : unclosed (chars "abc")). { repeat (apply un_plain; [discriminate|discriminate|]). constructor. }
  pose proof (unclosed_diverges _ _ _ _ Tk G U fuel) as D. cbn [length Nat.add] in D.
  destruct n as [|[|[|n]]].
  - cbn in A. subst r. destruct C as [C | (ts & t & st & C & _)]; [discriminate|].
    apply ok_eq_inv in C. injection C as C _. destruct ts; discriminate.
  - destruct (read_tokens_mono 1 fuel (fuel + 20) (new_lexer (chars "x 'abc")) ltac:(lia)) as [K | K]; [congruence|].
    destruct (read_tokens_ok _ (fuel + 20) _ _ _ Tk (new_lexer (chars "x 'abc")) (inv_new _) eq_refl ltac:(cbn; lia)) as (st & E & _).
    rewrite K in A. cbn [length] in E. rewrite E in A. subst r. destruct C as [C | (ts & t & st2 & C & Q)]; [discriminate|].
    apply ok_eq_inv in C. injection C as C _. destruct ts as [|? [|? ?]]; [|discriminate|discriminate].
    injection C as <-. discriminate.
  - congruence.
  - (* more readings fail as well *)
    apply B. rewrite <- A. clear - D. revert D. generalize (new_lexer (chars "x 'abc")). intros st D.
    cbn [read_tokens] in *. destruct (next_token fuel st) as [[t st1]|e]; cbn [bind fst snd] in *; [|assumption].
    destruct (next_token fuel st1) as [[t2 st2]|e]; cbn [bind fst snd] in *; [discriminate|].
    congruence.
Qed.
Print Assumptions C35_termination_refuted.

(** * C36 *)
(** What a client reads does not depend on where it peeks, and a peek answers the kind
    of the token the next reading will answer. *)
Theorem C36_peek : forall s h n ts st fuel, no_double_peek false h ->
  length (filter is_get h) + 1 <= n -> read_tokens fuel n (new_lexer s) = Ok (ts, st) ->
  run_calls fuel (new_lexer_obj s) h = Ok (expected (fun i => nth i ts end_token) 0 h).
Proof.
  intros s h n ts st fuel N L H.
  apply (run_calls_ok fuel end_token h n (new_lexer_obj s) ts st); assumption.
Qed.
Print Assumptions C36_peek.

(** A peek leaves the current token in place. *)
Theorem C36_current_token : forall fuel x k x', peek fuel x = Ok (k, x') -> x_tok x' = x_tok x.
Proof.
  intros fuel x k x' H. unfold peek in H. destruct (x_peek_done x); [discriminate|].
  destruct (get_sym fuel x) as [[t y]|e]; [|discriminate]. cbn [bind] in H.
  apply ok_eq_inv in H. now injection H as _ <-.
Qed.
Print Assumptions C36_current_token.

(** Peeking twice is rejected. *)
Theorem C36_double_peek_rejected : forall fuel x k x', peek fuel x = Ok (k, x') -> peek fuel x' = Err ValueError.
Proof.
  intros fuel x k x' H. unfold peek in H. destruct (x_peek_done x); [discriminate|].
  destruct (get_sym fuel x) as [[t y]|e]; [|discriminate]. cbn [bind] in H.
  apply ok_eq_inv in H. injection H as _ <-. reflexivity.
Qed.
Print Assumptions C36_double_peek_rejected.

(** * C37 *)
(** Reading line by line delivers the lines of the text, then empty strings. *)
Theorem C37_lines_in_order : forall (s : text) n,
  fst (read_lines n (new_stream s)) = firstn n (lines s) ++ repeat [] (n - length (lines s)).
Proof. intros s n. rewrite read_lines_spec by (cbn; lia). reflexivity. Qed.
Print Assumptions C37_lines_in_order.
(** The lines make up the text; a newline is at the end of each line but possibly the last. *)
Theorem C37_lines_are_the_text : forall s : text, concat (lines s) = s.
Proof. exact concat_lines. Qed.
Print Assumptions C37_lines_are_the_text.
Theorem C37_line_shape : forall (s l : text), In l (lines s) ->
  exists b, ~ In (ascii_of_nat 10) b /\ (l = b ++ [ascii_of_nat 10] \/ (l = b /\ b <> [])).
Proof. exact line_shape. Qed.
Print Assumptions C37_line_shape.

(** Reading from another place: after seek the next characters are those from there on.
    (whence 2 counts from the last character, not from the end.) *)
Theorem C37_seek : forall (st : stream) (offset : Z) (n : nat) (from : Z) st',
  (from = 0 \/ from = 1 \/ from = 2)%Z ->
  let place := (offset + (if from =? 0 then 0 else if from =? 1 then Z.of_nat (s_pos st)
                          else Z.of_nat (length (s_string st)) - 1))%Z in
  s_seek st offset from = Ok st' ->
  s_string st' = s_string st /\
  ((0 <= place)%Z -> fst (s_read st' n) = firstn n (skipn (Z.to_nat place) (s_string st))) /\
  ((place < 0)%Z -> fst (s_read st' n) = firstn n (s_string st)).
Proof.
  intros st offset n from st' [-> | [-> | ->]] place H; cbn in place; unfold s_seek in H; cbn in H;
    injection H as <-; (split; [reflexivity|]); split; intros P; unfold s_read; cbn [s_pos s_string fst]; subst place.
  all: match goal with
       | |- firstn _ (skipn ?a _) = firstn _ (skipn ?b _) => replace a with b by lia; reflexivity
       | |- firstn _ (skipn ?a _) = _ => replace a with 0 by lia; reflexivity
       end.
Qed.
Print Assumptions C37_seek.
Theorem C37_seek_ends : forall (st : stream) (offset from : Z),
  (exists st', s_seek st offset from = Ok st') <-> (from = 0 \/ from = 1 \/ from = 2)%Z.
Proof.
  intros st offset from. unfold s_seek. split.
  - destruct (Z.eqb_spec from 0); [auto|]. destruct (Z.eqb_spec from 1); [auto|].
    destruct (Z.eqb_spec from 2); [auto|]. intros [st' H]. discriminate.
  - intros [-> | [-> | ->]]; cbn; eauto.
Qed.
Print Assumptions C37_seek_ends.

(** * C54 *)
(** After reading tokens the reported offset is the number of characters before the rest of
    the text, and the reported line and column denote that offset. *)
Theorem C54_position_partial : forall s ts rest fuel, tokens s ts rest -> ts <> [] -> length s + 1 < fuel ->
  exists st, read_tokens fuel (length ts) (new_lexer s) = Ok (ts, st) /\
    chars_read st + length rest = length s /\
    offset s (l_line st) (current_column st) = chars_read st.
Proof. intros s ts rest fuel. now apply position. Qed.
Print Assumptions C54_position_partial.
(** At the end of the input the last line is counted twice. *)
Theorem C54_end_offset : forall s ts rest fuel, tokens s ts rest -> tail_gap rest -> length s + 1 < fuel ->
  exists st, read_tokens fuel (length ts + 1) (new_lexer s) = Ok (ts ++ [end_token], st) /\
    chars_read st = length s + length (last (lines s) []).
Proof. intros s ts rest fuel. now apply position_end. Qed.
Print Assumptions C54_end_offset.
Theorem C54_position_refuted :
  ~ (forall s n fuel ts st, read_tokens fuel n (new_lexer s) = Ok (ts, st) -> chars_read st <= length s).
Proof.
  intros H.
  destruct (C54_end_offset (chars " ") [] (chars " ") 10) as (st & A & B).
  - constructor.
  - constructor. constructor; [right; reflexivity|constructor].
  - cbn. lia.
  - specialize (H _ _ _ _ _ A). rewrite B in H. cbn in H. lia.
Qed.
Print Assumptions C54_position_refuted.

(** * The hypotheses are met *)
Definition show (r : res (list token * lexer)) : option (list (sym * string)) :=
  match r with Ok (ts, _) => Some (map (fun t => (fst t, string_of_list_ascii (snd t))) ts) | Err _ => None end.
Definition sample : text :=
  chars "foo: x ""a comment"" = ( |a| a := x foo: 3.14 bar:baz: 'it\'s'." ++ [newline] ++
  chars "  ---- ^ #at:put: primitive >>= -5 [:b | b] ""open".
Example C33_nonvacuous : show (read_tokens 200 30 (new_lexer sample)) = Some
  [(Keyword, "foo:"); (Identifier, "x"); (Equal, "="); (NewTerm, "("); (Or, "|"); (Identifier, "a"); (Or, "|");
   (Identifier, "a"); (Assign, ":="); (Identifier, "x"); (Keyword, "foo:"); (Double, "3.14");
   (KeywordSequence, "bar:baz:"); (STString, "it's"); (Period, "."); (Separator, "----"); (Exit, "^"); (Pound, "#");
   (KeywordSequence, "at:put:"); (Primitive, "primitive"); (OperatorSequence, ">>="); (Minus, "-"); (Integer, "5");
   (NewBlock, "["); (Colon, ":"); (Identifier, "b"); (Or, "|"); (Identifier, "b"); (EndBlock, "]");
   (NONE, String zero EmptyString)]%string.
Proof. vm_compute. reflexivity. Qed.
Definition sample_items : list item :=
  [{| i_token := (Identifier, chars "ab"); i_raw := chars "ab"; i_gap := chars """c""" |};
   {| i_token := (Integer, chars "12"); i_raw := chars "12"; i_gap := [newline; newline] |};
   {| i_token := (STString, [newline]); i_raw := chars "'\n'"; i_gap := chars " " |}].
Example C33_nonvacuous_round_trip : exists st,
  read_tokens 100 (3 + 1) (new_lexer (render (chars " ") sample_items))
  = Ok ([(Identifier, chars "ab"); (Integer, chars "12"); (STString, [newline])] ++ repeat end_token 1, st).
Proof.
  apply (C33_round_trip (chars " ") sample_items 1 100).
  - constructor; [right; reflexivity|constructor].
  - assert (W : white newline) by (left; cbn; lia).
    unfold sample_items; repeat apply Forall_cons; [| | |constructor]; (split; [|split; [|discriminate]]); cbn [i_token i_raw i_gap].
    + apply sp_identifier.
      * exists "a"%char, (chars "b"). split; [reflexivity|]. split; [right; cbn; lia|].
        constructor; [left; right; cbn; lia|constructor].
      * intros (q & Q & _). discriminate.
    + apply (gap_comment (chars "c") []); [cbn; intuition discriminate|constructor].
    + apply sp_integer. split; [discriminate|]. repeat constructor; cbn; lia.
    + repeat (constructor; [exact W|]). constructor.
    + apply (sp_string (chars "\n") [newline]). apply den_escape; [cbn; tauto|constructor].
    + constructor; [right; reflexivity|constructor].
  - vm_compute. lia.
Qed.
Example C34_nonvacuous :
  string_of_list_ascii (escape (chars "it's a \ b")) = "it\'s a \\ b"%string /\
  show (read_tokens 50 2 (new_lexer (chars "'a\tb\qc' x"))) =
    Some [(STString, String "a" (String (ascii_of_nat 9) "bc")); (Identifier, "x")]%string.
Proof. split; vm_compute; reflexivity. Qed.
Example C35_nonvacuous :
  read_tokens 1000 1 (new_lexer (chars "'abc")) = Err OutOfFuel /\
  read_tokens 50 1 (new_lexer (chars "'abc\")) = Err PyException /\
  show (read_tokens 50 2 (new_lexer (chars "a $"))) = Some [(Identifier, "a"); (NONE, "$")]%string.
Proof. repeat split; vm_compute; reflexivity. Qed.
Example C36_nonvacuous : run_calls 50 (new_lexer_obj (chars "a b: 1")) [Peek; GetSym; Peek; GetSym; GetSym; Peek] =
  Ok [ASym Identifier; AToken (Identifier, chars "a"); ASym Keyword; AToken (Keyword, chars "b:");
      AToken (Integer, chars "1"); ASym NONE].
Proof. vm_compute. reflexivity. Qed.
Example C37_nonvacuous :
  map string_of_list_ascii (fst (read_lines 4 (new_stream (chars "ab" ++ [newline] ++ [newline] ++ chars "c")))) =
  [String "a" (String "b" (String newline "")); String newline ""; "c"; ""]%string.
Proof. vm_compute. reflexivity. Qed.
Example C54_nonvacuous :
  match read_tokens 100 3 (new_lexer (chars "ab  " ++ [newline] ++ chars " cd e")) with
  | Ok (_, st) => chars_read st = 10 /\ l_line st = 2 /\ current_column st = 6 | Err _ => False end.
Proof. vm_compute. auto. Qed.
