(** The theorems about the reports of syntax errors. *)
From Coq Require Import ZArith Bool String Ascii List Lia.
From Verif Require Import Base LexModel LexSpec LexProofs LexProps NtxModel ErrModel ErrSpec ErrProofs.
Import ListNotations.
Open Scope nat_scope.
Open Scope list_scope.

(** * C67 *)
(** A complaint raised when the tokens [ts] of a source have been read: the report names a line and a
    column, which are those of the end of the last of these tokens, says what is wrong and quotes the
    line it names.  Missing: lines with a percent sign, and percent signs in what the message quotes. *)
Theorem C67_report_partial : forall s ts rest fuel, tokens s ts rest -> ts <> [] -> length s + 1 < fuel ->
  exists st line column, read_tokens fuel (length ts) (new_lexer s) = Ok (ts, st) /\
    offset s line column + length rest = length s /\
    forall other c p, p_lexer p = st -> clean c (p_text p) -> no_percent (line_of s line) ->
      error_str other (raised c p) = Ok (report (p_file p) line column (says c (p_sym p) (p_text p)) (line_of s line)).
Proof.
  intros s ts r fuel H N L. destruct (read_line s fuel ts r H N L) as (st & A & B & C).
  exists st, (l_line st), (current_column st). split; [exact A|]. split; [exact C|].
  intros other c p <- K P. rewrite report_then by exact K. rewrite B.
  rewrite <- (app_nil_r (line_of s _)) at 1. rewrite format_plain by exact P. cbn [format bind].
  now rewrite app_nil_r.
Qed.
Print Assumptions C67_report_partial.

(** At the end of the source: the report names the end of the last line, and quotes nothing. *)
Theorem C67_report_end : forall s ts rest fuel, tokens s ts rest -> tail_gap rest -> length s + 1 < fuel ->
  exists st, read_tokens fuel (length ts + 1) (new_lexer s) = Ok (ts ++ [end_token], st) /\
    forall other c p, p_lexer p = st -> clean c (p_text p) ->
      error_str other (raised c p) =
      Ok (report (p_file p) (length (lines s)) (length (line_of s (length (lines s))) + 1) (says c (p_sym p) (p_text p)) []).
Proof.
  intros s ts r fuel H G L. destruct (read_line_end s fuel ts r H G L) as (st & A & B & C & D).
  exists st. split; [exact A|]. intros other c p <- K. rewrite report_then by exact K.
  rewrite B, C, D. cbn [format bind]. unfold line_of. rewrite <- last_nth. reflexivity.
Qed.
Print Assumptions C67_report_end.

(** A source line with a percent sign, as in a send of the binary message %: there is no report of any
    complaint on that line.  Making it raises another exception. *)
Theorem C67_percent_refuted : forall s ts rest fuel, tokens s ts rest -> ts <> [] -> length s + 1 < fuel ->
  exists st line column, read_tokens fuel (length ts) (new_lexer s) = Ok (ts, st) /\
    offset s line column + length rest = length s /\
    forall other c p before after, p_lexer p = st -> clean c (p_text p) ->
      line_of s line = before ++ "%"%char :: after -> no_percent before -> no_percent after ->
      (forall u, after <> "("%char :: u) ->
      error_str other (raised c p) = Err TypeError \/ error_str other (raised c p) = Err ValueError.
Proof.
  intros s ts r fuel H N L. destruct (read_line s fuel ts r H N L) as (st & A & B & C).
  exists st, (l_line st), (current_column st). split; [exact A|]. split; [exact C|].
  intros other c p before after <- K E P1 P2 P3. rewrite report_then by exact K. rewrite B, E.
  rewrite format_plain by exact P1.
  destruct (format_single (entry (raised c p)) other after P2 P3) as [->| ->]; auto.
Qed.
Print Assumptions C67_percent_refuted.
(** The same where the percent sign is followed by a name in parentheses, as in [a %(b)]. *)
Theorem C67_percent_named_refuted : forall s ts rest fuel, tokens s ts rest -> ts <> [] -> length s + 1 < fuel ->
  exists st line column, read_tokens fuel (length ts) (new_lexer s) = Ok (ts, st) /\
    offset s line column + length rest = length s /\
    forall other c p before name after, p_lexer p = st -> clean c (p_text p) ->
      line_of s line = before ++ "%"%char :: "("%char :: name ++ ")"%char :: after -> no_percent before ->
      ~ In "("%char name -> ~ In ")"%char name ->
      ~ In name (map chars ["file"; "line"; "column"; "expected"; "found"]%string) ->
      error_str other (raised c p) = Err KeyError.
Proof.
  intros s ts r fuel H N L. destruct (read_line s fuel ts r H N L) as (st & A & B & C).
  exists st, (l_line st), (current_column st). split; [exact A|]. split; [exact C|].
  intros other c p before name after <- K E P1 P2 P3 P4. rewrite report_then by exact K. rewrite B, E.
  rewrite format_plain by exact P1. rewrite format_named; [reflexivity|assumption|assumption|].
  cbn [map In] in P4. unfold entry.
  repeat (destruct (list_eq_dec ascii_dec _ _) as [->|_]; [exfalso; tauto|]). reflexivity.
Qed.
Print Assumptions C67_percent_named_refuted.
(** Two percent signs in a row are quoted as one. *)
Theorem C67_double_percent_refuted : forall s ts rest fuel, tokens s ts rest -> ts <> [] -> length s + 1 < fuel ->
  exists st line column, read_tokens fuel (length ts) (new_lexer s) = Ok (ts, st) /\
    offset s line column + length rest = length s /\
    forall other c p before after, p_lexer p = st -> clean c (p_text p) ->
      line_of s line = before ++ "%"%char :: "%"%char :: after -> no_percent before -> no_percent after ->
      error_str other (raised c p) =
      Ok (report (p_file p) line column (says c (p_sym p) (p_text p)) (before ++ "%"%char :: after)).
Proof.
  intros s ts r fuel H N L. destruct (read_line s fuel ts r H N L) as (st & A & B & C).
  exists st, (l_line st), (current_column st). split; [exact A|]. split; [exact C|].
  intros other c p before after <- K E P1 P2. rewrite report_then by exact K. rewrite B, E.
  rewrite format_plain by exact P1. rewrite format_double.
  rewrite <- (app_nil_r after) at 1. rewrite format_plain by exact P2. cbn [format bind]. now rewrite app_nil_r.
Qed.
Print Assumptions C67_double_percent_refuted.

Section Examples.
Variable other : text -> ascii -> obj -> res text.
Definition source_of (l : list text) : text := flat_map (fun t => t ++ [ascii_of_nat 10]) l.
(** A missing operand, and the same with % for +. *)
Definition ex_source (op : string) : text :=
  source_of [chars "A = ("; chars "  run = ( ^ 3 " ++ chars op ++ chars " )"; chars ")"].
Definition ex_tokens (op : sym) (t : string) : list token :=
  [(Identifier, chars "A"); (Equal, chars "="); (NewTerm, chars "(");
   (Identifier, chars "run"); (Equal, chars "="); (NewTerm, chars "("); (Exit, chars "^");
   (Integer, chars "3"); (op, chars t); (EndTerm, chars ")")].
Lemma ex_reads : exists rest, tokens (ex_source "+") (ex_tokens Plus "+") rest.
Proof.
  apply (C33_tokens_iff_grammar _ _ 60); [vm_compute; lia|]. split.
  - eexists. vm_compute. reflexivity.
  - apply Forall_forall. intros t H. repeat destruct H as [<-|H]; try discriminate. destruct H.
Qed.
Lemma ex_reads_mod : exists rest, tokens (ex_source "%") (ex_tokens Per "%") rest.
Proof.
  apply (C33_tokens_iff_grammar _ _ 60); [vm_compute; lia|]. split.
  - eexists. vm_compute. reflexivity.
  - apply Forall_forall. intros t H. repeat destruct H as [<-|H]; try discriminate. destruct H.
Qed.
Definition after_reading (s : text) (n : nat) : option parser :=
  match read_tokens 60 n (new_lexer s) with
  | Ok (ts, st) => Some {| p_lexer := st; p_file := chars "A.som"; p_sym := fst (last ts end_token); p_text := snd (last ts end_token) |}
  | Err _ => None
  end.
Example C67_nonvacuous :
  (exists p, after_reading (ex_source "+") 10 = Some p /\
     error_str other (raised (Unexpected Identifier) p) =
     Ok (chars "A.som:2:18: error: Unexpected symbol. Expected Identifier, but found EndTerm:   run = ( ^ 3 + )" ++ [ascii_of_nat 10])) /\
  (exists p, after_reading (ex_source "+") 8 = Some p /\
     error_str other (raised (UnexpectedNoneOf [Exit; EndTerm]) p) =
     Ok (chars "A.som:2:14: error: Unexpected symbol. Expected one of Exit, EndTerm, but found Integer (3):   run = ( ^ 3 + )" ++ [ascii_of_nat 10])) /\
  (exists p, after_reading (ex_source "%") 10 = Some p /\
     error_str other (raised (Unexpected Identifier) p) = Err TypeError).
Proof.
  split; [|split]; eexists; (split; [vm_compute; reflexivity|]); vm_compute; reflexivity.
Qed.
End Examples.
