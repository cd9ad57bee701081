(** Proofs about the reports of syntax errors. *)
From Coq Require Import ZArith Bool String Ascii List Lia.
From Verif Require Import Base LexModel LexSpec LexProofs NtxModel NtxSpec NtxProofs ErrModel ErrSpec.
Import ListNotations.
Open Scope nat_scope.
Open Scope list_scope.

Lemma py_str_no_percent z : no_percent (py_str z).
Proof.
  destruct (py_str_written z) as (t & N & _ & E). rewrite E.
  assert (K : no_percent t).
  { unfold no_percent. clear E. induction N as [c d H|s n c d N IH H]; unfold digits10 in H; cbn [In] in H.
    - repeat destruct H as [H|H]; try contradiction; injection H as <- <-; cbn; intros [J|J]; try discriminate J; exact J.
    - intros J. apply in_app_or in J. destruct J as [J|J]; [auto|].
      repeat destruct H as [H|H]; try contradiction; injection H as <- <-; cbn in J; destruct J as [J|J]; try discriminate J; exact J. }
  destruct (z <? 0)%Z; [|exact K]. intros [J|J]; [discriminate J|auto].
Qed.
Lemma no_percent_app a b : no_percent a -> no_percent b -> no_percent (a ++ b).
Proof. intros A B H. apply in_app_or in H. destruct H; auto. Qed.
Lemma no_percent_b t : existsb (Ascii.eqb "%") t = false -> no_percent t.
Proof.
  intros H J. assert (K : existsb (Ascii.eqb "%") t = true); [|congruence].
  apply existsb_exists. exists "%"%char. split; [exact J|reflexivity].
Qed.

Section F.
Variable lookup : text -> option obj.
Variable other : text -> ascii -> obj -> res text.
Notation format := (format lookup other).
Lemma format_plain a : forall t s, no_percent t -> format Plain a (t ++ s) = (r <- format Plain a s ;; Ok (t ++ r)).
Proof.
  induction t as [|c t IH]; intros s H.
  - cbn [app]. now destruct (format Plain a s).
  - cbn [app ErrModel.format].
    destruct (Ascii.eqb_spec c "%") as [->|N]; [exfalso; apply H; now left|].
    rewrite IH by (intros J; apply H; now right). now destruct (format Plain a s).
Qed.
Lemma format_key a : forall k s acc, ~ In "("%char k -> ~ In ")"%char k ->
  format (Key 0 acc) a (k ++ ")"%char :: s) =
  match lookup (rev acc ++ k) with Some o => format (Spec Flags []) (Some o) s | None => Err KeyError end.
Proof.
  induction k as [|c k IH]; intros s acc A B.
  - cbn. rewrite app_nil_r. reflexivity.
  - cbn [app ErrModel.format].
    destruct (Ascii.eqb_spec c ")") as [->|N]; [exfalso; apply B; now left|].
    destruct (Ascii.eqb_spec c "(") as [->|N2]; [exfalso; apply A; now left|].
    rewrite IH; [|intros J; apply A; now right|intros J; apply B; now right].
    cbn [rev]. rewrite <- app_assoc. reflexivity.
Qed.
Lemma format_text k t s a : lookup (chars k) = Some (PyText t) -> existsb (fun c => one_of c "()") (chars k) = false ->
  format Plain a (chars "%(" ++ chars k ++ chars ")s" ++ s) = (r <- format Plain None s ;; Ok (t ++ r)).
Proof.
  intros L H. change (chars "%(" ++ chars k ++ chars ")s" ++ s) with ("%"%char :: "("%char :: chars k ++ ")"%char :: "s"%char :: s).
  change (format Plain a ("%"%char :: "("%char :: chars k ++ ")"%char :: "s"%char :: s)) with
    (format (Key 0 []) a (chars k ++ ")"%char :: "s"%char :: s)).
  rewrite format_key; [cbn [rev app]; rewrite L; reflexivity| |];
    intros J; assert (K : existsb (fun c => one_of c "()") (chars k) = true);
    try (apply existsb_exists; eexists; split; [exact J|reflexivity]); congruence.
Qed.
Lemma format_int k z s a : lookup (chars k) = Some (PyInt z) -> existsb (fun c => one_of c "()") (chars k) = false ->
  format Plain a (chars "%(" ++ chars k ++ chars ")d" ++ s) = (r <- format Plain None s ;; Ok (py_str z ++ r)).
Proof.
  intros L H. change (format Plain a (chars "%(" ++ chars k ++ chars ")d" ++ s)) with
    (format (Key 0 []) a (chars k ++ ")"%char :: "d"%char :: s)).
  rewrite format_key; [cbn [rev app]; rewrite L; reflexivity| |];
    intros J; assert (K : existsb (fun c => one_of c "()") (chars k) = true);
    try (apply existsb_exists; eexists; split; [exact J|reflexivity]); congruence.
Qed.
(** A single % not followed by a name has no argument. *)
Lemma format_spec_none : forall t ph acc, no_percent t ->
  format (Spec ph acc) None t = Err TypeError \/ format (Spec ph acc) None t = Err ValueError.
Proof.
  induction t as [|c t IH]; intros ph acc H; [now right|].
  assert (H' : no_percent t) by (intros J; apply H; now right).
  cbn [ErrModel.format]. destruct (part_of ph c); [now apply IH|now left|].
  destruct (Ascii.eqb_spec c "%") as [->|N]; [exfalso; apply H; now left|now left].
Qed.
Lemma format_single t : no_percent t -> (forall u, t <> "("%char :: u) ->
  format Plain None ("%"%char :: t) = Err TypeError \/ format Plain None ("%"%char :: t) = Err ValueError.
Proof.
  intros H N. change (format Plain None ("%"%char :: t)) with (format Begun None t).
  destruct t as [|c t]; [now right|].
  pose proof (format_spec_none (c :: t) Flags [] H) as K. cbn [ErrModel.format] in K |- *.
  destruct (Ascii.eqb_spec c "(") as [->|_]; [now destruct (N t)|exact K].
Qed.
Lemma format_named k t : ~ In "("%char k -> ~ In ")"%char k -> lookup k = None ->
  format Plain None ("%"%char :: "("%char :: k ++ ")"%char :: t) = Err KeyError.
Proof.
  intros A B L. change (format Plain None ("%"%char :: "("%char :: k ++ ")"%char :: t)) with
    (format (Key 0 []) None (k ++ ")"%char :: t)).
  rewrite format_key by assumption. cbn [rev app]. now rewrite L.
Qed.
Lemma format_double t : format Plain None ("%"%char :: "%"%char :: t) = (r <- format Plain None t ;; Ok ("%"%char :: r)).
Proof. reflexivity. Qed.
End F.

Lemma bind_assoc' (a : res text) (f g : text -> text) :
  (r <- (r <- a ;; Ok (f r)) ;; Ok (g r)) = (r <- a ;; Ok (g (f r))).
Proof. now destruct a. Qed.
Lemma join_commas l : join (map symbol_as_str l) = commas l.
Proof.
  destruct l as [|s l]; [reflexivity|]. cbn [commas]. revert s.
  induction l as [|x l IH]; intros s; [cbn [map join flat_map]; now rewrite app_nil_r|].
  cbn [flat_map]. change (join (map symbol_as_str (s :: x :: l))) with
    (symbol_as_str s ++ chars ", " ++ join (map symbol_as_str (x :: l))).
  rewrite IH. now rewrite <- app_assoc.
Qed.
Lemma found_token e : found_str e = token_text (e_found e) (e_text e).
Proof. unfold found_str, token_text. now destruct (e_found e). Qed.

Lemma entry_found c p : entry (raised c p) (chars "found") = Some (PyText (token_text (p_sym p) (p_text p))).
Proof.
  change (entry (raised c p) (chars "found")) with (Some (PyText (found_str (raised c p)))). rewrite found_token.
  now destruct c.
Qed.

(** The message, with the text behind it. *)
Definition said_then (other : text -> ascii -> obj -> res text) (e : parse_error) (said : text) : Prop :=
  forall s, format (entry e) other Plain None (e_message e ++ s) = (r <- format (entry e) other Plain None s ;; Ok (said ++ r)).
Ltac flat := repeat rewrite <- app_assoc.
Ltac nop := repeat apply no_percent_app; first [assumption | apply py_str_no_percent | apply no_percent_b; reflexivity].
Lemma raised_says other c p : clean c (p_text p) -> said_then other (raised c p) (says c (p_sym p) (p_text p)).
Proof.
  intros C s. destruct c as [x|l|n|x| | |n|n|n|b o]; cbn [clean] in C.
  - change (e_message (raised (Unexpected x) p)) with
      (chars "Unexpected symbol. Expected " ++ (chars "%(" ++ chars "expected" ++ chars ")s") ++ chars ", but found " ++
       (chars "%(" ++ chars "found" ++ chars ")s")). flat.
    rewrite format_plain by nop.
    rewrite (format_text _ _ "expected" (symbol_as_str x)) by reflexivity.
    rewrite format_plain by nop.
    rewrite (format_text _ _ "found" (token_text (p_sym p) (p_text p))); [|exact (entry_found _ p)|reflexivity].
    rewrite !bind_assoc'. unfold says. destruct (format _ _ _ _ s); cbn [bind]; [|reflexivity]. flat. reflexivity.
  - change (e_message (raised (UnexpectedNoneOf l) p)) with
      (chars "Unexpected symbol. Expected one of " ++ (chars "%(" ++ chars "expected" ++ chars ")s") ++ chars ", but found " ++
       (chars "%(" ++ chars "found" ++ chars ")s")). flat.
    rewrite format_plain by nop.
    rewrite (format_text _ _ "expected" (commas l)); [|rewrite <- join_commas; reflexivity|reflexivity].
    rewrite format_plain by nop.
    rewrite (format_text _ _ "found" (token_text (p_sym p) (p_text p))); [|exact (entry_found _ p)|reflexivity].
    rewrite !bind_assoc'. unfold says. destruct (format _ _ _ _ s); cbn [bind]; [|reflexivity]. flat. reflexivity.
  - apply format_plain. unfold raised, err_super_class, ParseError, e_message. nop.
  - apply format_plain. unfold raised, err_double, ParseError, e_message. nop.
  - apply format_plain. unfold raised, err_integer, ParseError, e_message. nop.
  - change (e_message (raised BadAssignment p)) with
      (chars "Assignments should always target variables or fields, but found instead a " ++ (chars "%(" ++ chars "found" ++ chars ")s")). flat.
    rewrite format_plain by nop.
    rewrite (format_text _ _ "found" (token_text (p_sym p) (p_text p))); [|exact (entry_found _ p)|reflexivity].
    rewrite !bind_assoc'. unfold says. destruct (format _ _ _ _ s); cbn [bind]; [|reflexivity]. flat. reflexivity.
  - apply format_plain. unfold raised, err_pseudo, ParseError, e_message. nop.
  - apply format_plain. unfold raised, err_argument, ParseError, e_message. nop.
  - apply format_plain. unfold raised, err_local, ParseError, e_message. nop.
  - apply format_plain. unfold raised, err_jump, ParseError, e_message. nop.
Qed.
Lemma raised_file c p : e_file (raised c p) = p_file p.
Proof. now destruct c. Qed.
Lemma raised_line c p : e_line (raised c p) = l_line (p_lexer p).
Proof. now destruct c. Qed.
Lemma raised_column c p : e_column (raised c p) = current_column (p_lexer p).
Proof. now destruct c. Qed.
Lemma raised_raw c p : e_raw (raised c p) = raw_buffer (p_lexer p).
Proof. now destruct c. Qed.
(** Everything but the quoted line. *)
Lemma report_then other c p : clean c (p_text p) ->
  error_str other (raised c p) =
  (r <- format (entry (raised c p)) other Plain None (raw_buffer (p_lexer p)) ;;
   Ok (report (p_file p) (l_line (p_lexer p)) (current_column (p_lexer p)) (says c (p_sym p) (p_text p)) r)).
Proof.
  intros C. unfold error_str. rewrite raised_raw.
  change (chars "%(file)s:%(line)d:%(column)d: error: ") with
    ((chars "%(" ++ chars "file" ++ chars ")s") ++ chars ":" ++ (chars "%(" ++ chars "line" ++ chars ")d") ++ chars ":" ++
     (chars "%(" ++ chars "column" ++ chars ")d") ++ chars ": error: "). flat.
  rewrite (format_text _ _ "file" (p_file p)); [|rewrite <- (raised_file c p); reflexivity|reflexivity].
  rewrite format_plain by nop.
  rewrite (format_int _ _ "line" (Z.of_nat (l_line (p_lexer p)))); [|rewrite <- (raised_line c p); reflexivity|reflexivity].
  rewrite format_plain by nop.
  rewrite (format_int _ _ "column" (Z.of_nat (current_column (p_lexer p)))); [|rewrite <- (raised_column c p); reflexivity|reflexivity].
  rewrite format_plain by nop.
  rewrite (raised_says other c p C).
  rewrite format_plain by nop.
  rewrite !bind_assoc'. unfold report.
  destruct (format _ _ _ _ (raw_buffer (p_lexer p))); reflexivity.
Qed.

(** * The line quoted *)
Lemma last_nth (l : list text) : last l [] = nth (length l - 1) l [].
Proof.
  induction l as [|x l IH]; [reflexivity|]. destruct l as [|y l]; [reflexivity|].
  change (last (x :: y :: l) []) with (last (y :: l) []). rewrite IH.
  cbn [length]. replace (S (S (length l)) - 1) with (S (S (length l) - 1)) by lia. reflexivity.
Qed.
Lemma raw_exact T st : exact T st -> l_line st <> 0 -> raw_buffer st = line_of T (l_line st).
Proof.
  intros D N. destruct (e_lines _ _ D) as (pre & L1 & L2 & L3 & L4 & L5).
  assert (NE : pre <> []) by (intros ->; cbn in L2; lia).
  unfold raw_buffer, line_of. rewrite (e_str _ _ D), <- L3, L5, L1, app_nth1 by lia.
  rewrite <- L2, <- last_nth.
  pose proof (concat_lines T) as CT. rewrite L1 in CT. rewrite <- CT, concat_app.
  rewrite removelast_last_length, Nat.add_sub.
  assert (Q : concat pre = concat (removelast pre) ++ last pre []).
  { rewrite (app_removelast_last [] NE) at 1. rewrite concat_app. cbn [concat]. now rewrite app_nil_r. }
  rewrite Q.
  rewrite <- app_assoc, skipn_app, skipn_all, Nat.sub_diag. cbn [skipn app].
  rewrite firstn_app, firstn_all, Nat.sub_diag. cbn [firstn]. apply app_nil_r.
Qed.
Lemma raw_eof T st : eof T st -> raw_buffer st = [].
Proof. intros D. unfold raw_buffer. now rewrite (f_len _ _ D). Qed.
Lemma read_line T fuel ts r : tokens T ts r -> ts <> [] -> length T + 1 < fuel ->
  exists st, read_tokens fuel (length ts) (new_lexer T) = Ok (ts, st) /\ raw_buffer st = line_of T (l_line st) /\
    offset T (l_line st) (current_column st) + length r = length T.
Proof.
  intros H N L.
  destruct (position T fuel ts r H N L) as (st & A & B & C). exists st. split; [exact A|].
  destruct (read_tokens_ok T fuel T ts r H (new_lexer T) (inv_new T) eq_refl L) as (st' & A' & _ & C' & D).
  rewrite A in A'. injection A' as <-. specialize (D N).
  split; [|lia]. apply raw_exact; [exact D|]. intros Z.
  destruct (e_lines _ _ D) as (pre & L1 & L2 & L3 & L4 & L5). rewrite Z in L2. destruct pre; [|discriminate].
  cbn in L3, L4, L5. pose proof (e_len _ _ D). unfold chars_read in B. apply tokens_len in H.
  destruct ts; [congruence|]. cbn [length] in H. lia.
Qed.
Lemma read_line_end T fuel ts r : tokens T ts r -> tail_gap r -> length T + 1 < fuel ->
  exists st, read_tokens fuel (length ts + 1) (new_lexer T) = Ok (ts ++ [end_token], st) /\ raw_buffer st = [] /\
    l_line st = length (lines T) /\ current_column st = length (last (lines T) []) + 1.
Proof.
  intros H G L.
  destruct (read_tokens_ok T fuel T ts r H (new_lexer T) (inv_new T) eq_refl L) as (st & A & B & C & _).
  destruct (read_end T fuel st B) as (st2 & E & F).
  - now rewrite C.
  - rewrite C. apply tokens_len in H. lia.
  - exists st2. split; [apply (read_tokens_app fuel (length ts) 1 _ ts st); [assumption|]; cbn [read_tokens]; now rewrite E|].
    split; [now apply (raw_eof T)|]. split; [apply (f_line _ _ F)|]. unfold current_column. rewrite (f_bufp _ _ F). lia.
Qed.
