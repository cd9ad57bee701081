(** C64: the shell. *)
From Coq Require Import ZArith Bool String Ascii List Lia.
From Verif Require LexSpec LexProofs LexProps.
From Verif Require Import Base LexModel ParseModel ParseSpec ParseProps NtxModel NtxSpec NtxProofs.
From Verif Require Import ArgModel ArgSpec ArgProofs ArgProps ShellModel ShellSpec.
Import ListNotations.
Open Scope nat_scope.
Open Scope list_scope.

(** * Statements as texts *)
Notation toks := LexSpec.tokens.
Notation gap := LexSpec.gap.
Definition space : ascii := " "%char.
Lemma gap_app g h : gap g -> gap h -> gap (g ++ h).
Proof.
  induction 1; intros Hh; cbn [app]; auto.
  - constructor; auto.
  - rewrite <- app_assoc. cbn [app]. apply LexSpec.gap_comment; auto.
Qed.
Lemma gap_space : gap [space].
Proof. constructor; [right; reflexivity|constructor]. Qed.
Lemma not_after_space (t : token) raw s : LexSpec.spells t raw -> LexSpec.ends_before t (space :: s).
Proof. intros H. apply (LexProofs.ends_before_gap t raw [space] s H gap_space). discriminate. Qed.
Lemma ends_extend (t : token) raw s x : LexSpec.spells t raw -> LexSpec.ends_before t s -> LexSpec.ends_before t (s ++ space :: x).
Proof.
  intros Hs He. destruct s as [|c s]; [apply (not_after_space t raw); auto|]. cbn [app].
  unfold LexSpec.ends_before, LexSpec.not_next in *. destruct (fst t); auto.
  destruct He as [H1 H2]. split; [exact H1|]. destruct s as [|d s]; cbn [app]; [|exact H2].
  intros [_ H]. unfold LexSpec.digit, LexSpec.code in H. vm_compute in H. lia.
Qed.
Lemma toks_extend s ts g x : toks s ts g -> toks (s ++ space :: x) ts (g ++ space :: x).
Proof.
  induction 1 as [rest|g t raw s ts rest Hg Hs He Ht IH]; [constructor|].
  rewrite <- !app_assoc. constructor; auto. apply (ends_extend t raw); auto.
Qed.
Lemma toks_app s ts r : toks s ts r -> forall us q, toks r us q -> toks s (ts ++ us) q.
Proof. induction 1; intros us q Hq; cbn [app]; auto. constructor; auto. Qed.
Lemma tok g t raw s ts rest src :
  src = g ++ raw ++ s -> gap g -> LexSpec.spells t raw -> LexSpec.ends_before t s -> toks s ts rest -> toks src (t :: ts) rest.
Proof. intros ->. apply LexSpec.tks_cons. Qed.

(** Words *)
Definition letterb (c : ascii) : bool :=
  let n := nat_of_ascii c in ((65 <=? n) && (n <=? 90)) || ((97 <=? n) && (n <=? 122)).
Definition word_charb (c : ascii) : bool :=
  let n := nat_of_ascii c in letterb c || ((48 <=? n) && (n <=? 57)) || (n =? 95).
Lemma letterb_ok c : letterb c = true -> LexSpec.letter c.
Proof. unfold letterb, LexSpec.letter, LexSpec.code. rewrite orb_true_iff, !andb_true_iff, !Nat.leb_le. tauto. Qed.
Lemma word_charb_ok c : word_charb c = true -> LexSpec.word_char c.
Proof.
  unfold word_charb, LexSpec.word_char. rewrite !orb_true_iff, andb_true_iff, !Nat.leb_le, Nat.eqb_eq. intros [[H|H]|H].
  - left. apply letterb_ok, H.
  - right. left. exact H.
  - right. right. rewrite <- (ascii_nat_embedding c), H. reflexivity.
Qed.
Lemma word_ok a t : letterb a = true -> forallb word_charb t = true -> LexSpec.word (a :: t).
Proof.
  intros Ha Ht. exists a, t. split; [reflexivity|]. split; [apply letterb_ok, Ha|]. apply Forall_forall. intros c Hc.
  apply word_charb_ok. rewrite forallb_forall in Ht. auto.
Qed.
Lemma not_reserved w : firstn 9 w <> LexSpec.chars "primitive" -> ~ LexSpec.reserved w.
Proof. intros H (r & -> & _). apply H. reflexivity. Qed.
Lemma digits_words z : (0 <= z)%Z -> forallb word_charb (py_str z) = true.
Proof.
  intros Hz. destruct (py_str_written z) as (t & N & _ & E). rewrite (proj2 (Z.ltb_ge z 0) Hz) in E. rewrite E. clear E.
  induction N as [c d H|s n c d N IH H].
  - cbn [forallb]. rewrite andb_true_r. unfold digits10 in H. cbn [In] in H.
    repeat destruct H as [H|H]; try contradiction; injection H as <- <-; reflexivity.
  - rewrite forallb_app, IH. cbn [forallb andb]. rewrite andb_true_r. unfold digits10 in H. cbn [In] in H.
    repeat destruct H as [H|H]; try contradiction; injection H as <- <-; reflexivity.
Qed.
Definition class_name (n : Z) : text := str "Shell_Class_" ++ py_str n.
Lemma class_name_word n : (0 <= n)%Z -> LexSpec.spells (Identifier, class_name n) (class_name n).
Proof.
  intros Hn. apply LexSpec.sp_identifier.
  - unfold class_name. change (str "Shell_Class_" ++ py_str n) with ("S"%char :: str "hell_Class_" ++ py_str n).
    apply word_ok; [reflexivity|]. rewrite forallb_app, digits_words by auto. reflexivity.
  - apply not_reserved. unfold class_name. cbn. discriminate.
Qed.

Definition before_toks (n : Z) : tokens :=
  [(Identifier, class_name n); (Equal, str "="); (NewTerm, str "("); (Keyword, str "run:"); (Identifier, str "it");
   (Equal, str "="); (NewTerm, str "("); (Or, str "|"); (Identifier, str "tmp"); (Or, str "|");
   (Identifier, str "tmp"); (Assign, str ":="); (NewTerm, str "(")].
Definition after_toks : tokens :=
  [(EndTerm, str ")"); (Period, str "."); (STString, str "it = "); (Identifier, str "print"); (Period, str ".");
   (Exit, str "^"); (Identifier, str "tmp"); (Identifier, str "println"); (EndTerm, str ")"); (EndTerm, str ")")].
Ltac sp_word := first [apply LexSpec.sp_identifier | apply (LexSpec.sp_keyword (str "run"))]; [apply word_ok; reflexivity|apply not_reserved; cbn; discriminate].
Ltac sp_op := apply LexSpec.sp_operator; cbn; tauto.
Ltac sp_punct := apply LexSpec.sp_punctuation; cbn; tauto.
Ltac no_op := let H := fresh in intros [? H]; cbn in H; repeat destruct H as [H|H]; try discriminate H; contradiction.
Ltac nogap := apply LexSpec.gap_nil.
Ltac plain := let H := fresh in intros H; unfold LexSpec.word_char, LexSpec.letter, LexSpec.digit, LexSpec.code in H; vm_compute in H; intuition (try lia; try discriminate).
Lemma before_ok n rest : (0 <= n)%Z ->
  toks (class_name n ++ str " = ( run: it = ( | tmp | tmp := (" ++ rest) (before_toks n) rest.
Proof.
  intros Hn. unfold before_toks.
  assert (SP : forall (t : token) raw s ts src, LexSpec.spells t raw -> src = space :: raw ++ space :: s -> toks (space :: s) ts rest -> toks src (t :: ts) rest).
  { intros t raw s ts src Hs -> Ht. apply (tok [space] t raw (space :: s)); auto; [apply gap_space|apply (not_after_space t raw); auto]. }
  apply (tok [] (Identifier, class_name n) (class_name n) (str " = ( run: it = ( | tmp | tmp := (" ++ rest)); [reflexivity|nogap|apply class_name_word; auto|apply (not_after_space _ (class_name n)), class_name_word; auto|].
  apply (SP (Equal, str "=") (str "=") (str "( run: it = ( | tmp | tmp := (" ++ rest)); [sp_op|reflexivity|].
  apply (SP (NewTerm, str "(") (str "(") (str "run: it = ( | tmp | tmp := (" ++ rest)); [sp_punct|reflexivity|].
  apply (SP (Keyword, str "run:") (str "run:") (str "it = ( | tmp | tmp := (" ++ rest)); [sp_word|reflexivity|].
  apply (SP (Identifier, str "it") (str "it") (str "= ( | tmp | tmp := (" ++ rest)); [sp_word|reflexivity|].
  apply (SP (Equal, str "=") (str "=") (str "( | tmp | tmp := (" ++ rest)); [sp_op|reflexivity|].
  apply (SP (NewTerm, str "(") (str "(") (str "| tmp | tmp := (" ++ rest)); [sp_punct|reflexivity|].
  apply (SP (Or, str "|") (str "|") (str "tmp | tmp := (" ++ rest)); [sp_op|reflexivity|].
  apply (SP (Identifier, str "tmp") (str "tmp") (str "| tmp := (" ++ rest)); [sp_word|reflexivity|].
  apply (SP (Or, str "|") (str "|") (str "tmp := (" ++ rest)); [sp_op|reflexivity|].
  apply (SP (Identifier, str "tmp") (str "tmp") (str ":= (" ++ rest)); [sp_word|reflexivity|].
  apply (SP (Assign, str ":=") (str ":=") (str "(" ++ rest)); [apply LexSpec.sp_assign|reflexivity|].
  apply (tok [space] (NewTerm, str "(") (str "(") rest); [reflexivity|apply gap_space|sp_punct|exact I|constructor].
Qed.
Lemma after_ok g : gap g -> toks (g ++ str " ). 'it = ' print. ^tmp println ) )") after_toks [].
Proof.
  intros Hg. unfold after_toks.
  assert (SP : forall (t : token) raw s ts src, LexSpec.spells t raw -> src = space :: raw ++ space :: s -> toks (space :: s) ts [] -> toks src (t :: ts) []).
  { intros t raw s ts src Hs -> Ht. apply (tok [space] t raw (space :: s)); auto; [apply gap_space|apply (not_after_space t raw); auto]. }
  apply (tok (g ++ [space]) (EndTerm, str ")") (str ")") (str ". 'it = ' print. ^tmp println ) )"));
    [rewrite <- app_assoc; reflexivity|apply gap_app; [auto|apply gap_space]|sp_punct|exact I|].
  apply (tok [] (Period, str ".") (str ".") (str " 'it = ' print. ^tmp println ) )")); [reflexivity|nogap|sp_punct|exact I|].
  apply (SP (STString, str "it = ") (str "'it = '") (str "print. ^tmp println ) )")); [|reflexivity|].
  { apply (LexSpec.sp_string (str "it = ") (str "it = ")). repeat (apply LexSpec.den_plain; [discriminate|discriminate|]). constructor. }
  apply (tok [space] (Identifier, str "print") (str "print") (str ". ^tmp println ) )")); [reflexivity|apply gap_space|sp_word| |].
  { unfold LexSpec.ends_before, LexSpec.not_next. cbn. plain. }
  apply (tok [] (Period, str ".") (str ".") (str " ^tmp println ) )")); [reflexivity|nogap|sp_punct|exact I|].
  apply (tok [space] (Exit, str "^") (str "^") (str "tmp println ) )")); [reflexivity|apply gap_space|sp_punct|exact I|].
  apply (tok [] (Identifier, str "tmp") (str "tmp") (str " println ) )")); [reflexivity|nogap|sp_word|apply (not_after_space _ (str "tmp")); sp_word|].
  apply (SP (Identifier, str "println") (str "println") (str ") )")); [sp_word|reflexivity|].
  apply (SP (EndTerm, str ")") (str ")") (str ")")); [sp_punct|reflexivity|].
  apply (tok [space] (EndTerm, str ")") (str ")") []); [reflexivity|apply gap_space|sp_punct|exact I|constructor].
Qed.
Lemma source_toks n s ts g : (0 <= n)%Z -> toks s ts g -> gap g ->
  toks (shell_source n s) (before_toks n ++ ts ++ after_toks) [].
Proof.
  intros Hn Ht Hg. unfold shell_source. rewrite app_assoc. fold (class_name n).
  eapply toks_app; [apply before_ok; auto|]. eapply toks_app.
  - change (str " ). 'it = ' print. ^tmp println ) )") with (space :: str "). 'it = ' print. ^tmp println ) )").
    apply (toks_extend s ts g). exact Ht.
  - apply after_ok, Hg.
Qed.
Lemma source_grammar oo ao (tok : text -> Prop) (n : Z) e ts : tok (str "tmp") -> G_expr oo ao tok e ts ->
  G_class oo ao tok (shell_class (class_name n) e) (before_toks n ++ ts ++ after_toks).
Proof.
  intros Ht He.
  assert (N : forall k, k = Identifier -> name_token k) by (intros k ->; left; auto).
  pose (body := ([(Identifier, str "tmp"); (Assign, str ":=")] ++ ((NewTerm, str "(") :: ts ++ [(EndTerm, str ")")]))
     ++ (Period, str ".") :: ([(STString, str "it = ")] ++ [(Identifier, str "print")]) ++ (Period, str ".") ::
     (Exit, str "^") :: ([(Identifier, str "tmp")] ++ [(Identifier, str "println")]) ++ []).
  assert (B : G_body oo ao tok [Asgn [str "tmp"] e; Send false (Lit (LStr (str "it = "))) (str "print") []]
     (Some (Send false (Var (str "tmp")) (str "println") [])) body).
  { unfold body. apply S_more.
    - apply E_assign; [apply T_one; auto|]. apply K_binary with (s := false), B_unary, U_primary, P_paren, He.
    - apply S_more.
      + apply E_eval, K_binary with (s := false), B_unary. apply U_send; auto. apply U_primary, P_lit, L_str.
      + apply S_return; [|left; reflexivity]. apply E_eval, K_binary with (s := false), B_unary. apply U_send; auto. apply U_primary, P_name; auto. discriminate. }
  pose (mts := [(Keyword, str "run:"); (Identifier, str "it")] ++ (Equal, str "=") :: (NewTerm, str "(") ::
     ((Or, str "|") :: [(Identifier, str "tmp")] ++ [(Or, str "|")]) ++ body ++ [(EndTerm, str ")")]).
  replace (before_toks n ++ ts ++ after_toks)
    with ((Identifier, class_name n) :: (Equal, str "=") :: [] ++ (NewTerm, str "(") :: [] ++ (mts ++ []) ++ [] ++ [(EndTerm, str ")")]).
  2:{ unfold before_toks, after_toks, mts, body. cbn [app]. rewrite !app_nil_r. cbn [app]. rewrite <- ?app_assoc. cbn [app]. rewrite <- ?app_assoc. reflexivity. }
  apply CD; [left; auto|constructor| |discriminate|constructor].
  apply MS_cons; [|constructor]. unfold mts. apply M_body; [|apply D_some; constructor; auto; constructor|exact B].
  apply M_keyword; [discriminate|]. apply (KP_cons (str "run:") Identifier (str "it") [] [] []); auto. constructor.
Qed.

(** C64, statements.  Let the line [s] be a way of writing the expression [e]: then the text
    the shell compiles is read, by the parser of either interpreter, as the class with the
    method [run: it = ( | tmp | tmp := e. 'it = ' print. ^ tmp println )].  The conditions on
    the expression are those of C38. *)
Theorem C64_ast_statement_partial : forall n s ts g e,
  (0 <= n)%Z -> LexSpec.tokens s ts g -> LexSpec.gap g ->
  G_expr not_super_operand quiet_first_arg assignable e ts ->
  exists all, ast_class all = Ok (shell_class (class_name n) e, []) /\
    forall fuel, length (shell_source n s) + 1 < fuel ->
      exists st, LexSpec.read_tokens fuel (length all + 1) (new_lexer (shell_source n s)) = Ok (all ++ [LexSpec.end_token], st).
Proof.
  intros n s ts g e Hn Ht Hg He. exists (before_toks n ++ ts ++ after_toks). split.
  - rewrite <- (app_nil_r (before_toks n ++ ts ++ after_toks)). apply C56_ast_class_partial. apply source_grammar; auto. split; discriminate.
  - intros fuel Hf. destruct (LexProps.C54_end_offset _ _ [] fuel (source_toks n s ts g Hn Ht Hg)) as (st & H & _); eauto.
    constructor. constructor.
Qed.
Print Assumptions C64_ast_statement_partial.
Theorem C64_bc_statement_partial : forall n s ts g e,
  (0 <= n)%Z -> LexSpec.tokens s ts g -> LexSpec.gap g ->
  G_expr whole_one any_args any_target e ts ->
  exists all b, bc_class all = Ok (b, []) /\ compiles_class (shell_class (class_name n) e) b /\
    forall fuel, length (shell_source n s) + 1 < fuel ->
      exists st, LexSpec.read_tokens fuel (length all + 1) (new_lexer (shell_source n s)) = Ok (all ++ [LexSpec.end_token], st).
Proof.
  intros n s ts g e Hn Ht Hg He. exists (before_toks n ++ ts ++ after_toks).
  destruct (C56_bc_class_partial (shell_class (class_name n) e) (before_toks n ++ ts ++ after_toks) []) as (b & H1 & H2).
  { apply source_grammar; auto. exact I. }
  rewrite app_nil_r in H1. exists b. split; [exact H1|]. split; [exact H2|].
  intros fuel Hf. destruct (LexProps.C54_end_offset _ _ [] fuel (source_toks n s ts g Hn Ht Hg)) as (st & H & _); eauto.
  constructor. constructor.
Qed.
Print Assumptions C64_bc_statement_partial.
(** No two statements get the same class name. *)
Theorem C64_class_names : forall i j, (0 <= i)%Z -> (0 <= j)%Z -> class_name i = class_name j -> i = j.
Proof.
  intros i j Hi Hj H. unfold class_name in H. apply app_inv_head in H.
  destruct (py_str_written i) as (t & N & _ & E). destruct (py_str_written j) as (t' & N' & _ & E').
  rewrite (proj2 (Z.ltb_ge _ 0) Hi) in E. rewrite (proj2 (Z.ltb_ge _ 0) Hj) in E'. rewrite Z.abs_eq in N, N' by auto. subst t t'. rewrite H in N.
  assert (U : forall s a, numeral s a -> forall b, numeral s b -> a = b).
  { clear. assert (D : forall c d d', In (c, d) digits10 -> In (c, d') digits10 -> d = d').
    { intros c d d' A B. unfold digits10 in A, B. cbn [In] in A, B.
      repeat (destruct A as [A|A]; [injection A as <- <-; repeat (destruct B as [B|B]; [injection B; try discriminate; congruence|]); contradiction|]). contradiction. }
    induction 1 as [c d H|s n c d N IH H]; intros b Hb.
    - inversion Hb as [c' d' H' E|s' n' c' d' N' H' E]; subst.
      + apply (D c); auto.
      + destruct s' as [|x s']; [inversion N'; subst; destruct s; discriminate|destruct s'; discriminate].
    - inversion Hb as [c' d' H' E|s' n' c' d' N' H' E]; subst.
      + destruct s as [|x s]; [inversion N; subst; destruct s; discriminate|destruct s; discriminate].
      + apply app_inj_tail in E as [-> ->]. rewrite (IH _ N'), (D _ _ _ H H'). reflexivity. }
  apply (U _ _ N _ N').
Qed.
Print Assumptions C64_class_names.

(** * Sessions *)
Section Sessions.
Context {W C : Type}.
Variable load : text -> W -> W * (option C + raised).
Variable run : C -> value -> W -> W * (value + raised).
Variable report : raised -> W -> W.
Notation evaluate := (evaluate load run report).
Notation loop := (shell_loop load run report).
Definition latest_from (it : value) (rs : list result) : value :=
  fold_left (fun it r => match r with Answer v => v | _ => it end) rs it.
Definition turns_from (n : nat) (it : value) (w : W) (lines : list string) (rs : list result) (ws : list W) : Prop :=
  length rs = length lines /\ length ws = length lines /\
  forall i line, nth_error lines i = Some line ->
    exists w' r, nth_error ws i = Some w' /\ nth_error rs i = Some r /\
      evaluate (shell_source (Z.of_nat (n + i)) (str line)) (latest_from it (firstn i rs)) (nth i (w :: ws) w) = (w', r).
Lemma turns_cons n it w line lines w' r rs ws :
  evaluate (shell_source (Z.of_nat n) (str line)) it w = (w', r) ->
  turns_from (S n) (latest_from it [r]) w' lines rs ws -> turns_from n it w (line :: lines) (r :: rs) (w' :: ws).
Proof.
  intros He (L1 & L2 & H). split; [cbn; lia|]. split; [cbn; lia|]. intros [|i] x Hx.
  - injection Hx as <-. exists w', r. rewrite Nat.add_0_r. auto.
  - cbn [nth_error] in Hx. destruct (H i x Hx) as (w2 & r2 & A & B & D). exists w2, r2. split; [exact A|]. split; [exact B|].
    replace (n + S i) with (S n + i) by lia. cbn [firstn]. change (latest_from it (r :: firstn i rs)) with (latest_from (latest_from it [r]) (firstn i rs)).
    rewrite <- D. f_equal. cbn [nth]. destruct i; [reflexivity|]. apply nth_indep.
    assert (S i < length lines) by (apply nth_error_Some; congruence). lia.
Qed.
Lemma concat_no_char c ps : Forall (no_char c) ps -> no_char c (String.concat "" ps).
Proof.
  induction 1 as [|p ps Hp Hps IH]; [intros []|]. destruct ps as [|q ps]; [exact Hp|].
  change (String.concat "" (p :: q :: ps)) with (p ++ "" ++ String.concat "" (q :: ps))%string. apply no_char_app. split; auto.
Qed.
Lemma loop_line fuel n it line chunks rest w : statement line -> arrives line chunks ->
  loop (S fuel) (Z.of_nat n) it (chunks ++ rest) w =
  match evaluate (shell_source (Z.of_nat n) (str line)) it w with
  | (w', Leave code) => Some (w', Exited code)
  | (w', r) => loop fuel (Z.of_nat (S n)) (latest_from it [r]) rest w'
  end.
Proof.
  intros [Hne Hnq] (pieces & final & -> & Hp & Hf & Hl). cbn [shell_loop].
  rewrite <- app_assoc. cbn [app]. pose proof (C53_line_partial pieces final rest "" Hp Hf) as E.
  change (String nl "") with (String end_of_line "") in E. rewrite E. clear E. change ("" ++ String.concat "" pieces ++ final)%string with (String.concat "" pieces ++ final)%string. rewrite <- Hl.
  rewrite (proj2 (String.eqb_neq line "quit") Hnq), (proj2 (String.eqb_neq line "") Hne). cbn [orb].
  assert (Hn : (line =? newline)%string = false).
  { apply String.eqb_neq. intros ->. assert (Hc : no_char nl newline).
    { rewrite Hl. apply no_char_app. split; [|exact Hf]. apply concat_no_char. eapply Forall_impl; [|exact Hp]. intros p [_ H]. exact H. }
    apply Hc. left. reflexivity. }
  rewrite Hn. replace (Z.of_nat n + 1)%Z with (Z.of_nat (S n)) by lia. unfold ShellSpec.evaluate.
  destruct (load (shell_source (Z.of_nat n) (str line)) w) as [w1 [[c|]|r]]; [|reflexivity|destruct r; reflexivity].
  destruct (run c it w1) as [w2 [v|r]]; [reflexivity|destruct r; reflexivity].
Qed.
(** The end of the session: the line quit, or the end of the input. *)
Definition closing (chunks : list string) : Prop :=
  chunks = [] \/ (exists rest, chunks = ""%string :: rest) \/ exists l rest, chunks = l ++ rest /\ arrives "quit" l.
Lemma loop_closing fuel n it chunks w : closing chunks -> loop (S fuel) n it chunks w = Some (w, Returned it).
Proof.
  intros [->|[[rest ->]|(l & rest & -> & pieces & final & -> & Hp & Hf & Hl)]]; [reflexivity|reflexivity|].
  cbn [shell_loop]. rewrite <- app_assoc. cbn [app]. pose proof (C53_line_partial pieces final rest "" Hp Hf) as E.
  change (String nl "") with (String end_of_line "") in E. rewrite E, <- Hl. reflexivity.
Qed.
Lemma loop_session : forall lines arrivals last, Forall statement lines -> Forall2 arrives lines arrivals -> closing last ->
  forall n it w, exists k rs ws e,
    k <= length lines /\ turns_from n it w (firstn k lines) rs ws /\
    (forall fuel, length lines < fuel -> loop fuel (Z.of_nat n) it (concat arrivals ++ last) w = Some (nth k (w :: ws) w, e)) /\
    (k = length lines /\ (forall r, In r rs -> ~ leaves r) /\ e = Returned (latest_from it rs) \/
     exists before code, rs = before ++ [Leave code] /\ (forall r, In r before -> ~ leaves r) /\ e = Exited code).
Proof.
  intros lines arrivals last Hs Ha Hc. revert Hs. induction Ha as [|line chunks lines arrivals Harr Ha IH]; intros Hs n it w.
  - exists 0, [], [], (Returned it). split; [auto|]. split; [split; [auto|split; [auto|intros [|i] x H; discriminate]]|].
    split; [|left; repeat split; intros r []].
    intros [|fuel] Hf; [cbn in Hf; lia|]. apply loop_closing, Hc.
  - inversion Hs as [|? ? Hl Hs']; subst. cbn [concat length].
    destruct (evaluate (shell_source (Z.of_nat n) (str line)) it w) as [w' r] eqn:Ev.
    destruct r as [v| |code].
    1,2: destruct (IH Hs' (S n) (latest_from it [match evaluate (shell_source (Z.of_nat n) (str line)) it w with (_, r) => r end]) w') as (k & rs & ws & e & Hk & Ht & Hr & Hd);
      rewrite Ev in *; (match type of Ev with _ = (_, ?x) => exists (S k), (x :: rs), (w' :: ws), e end);
      split; [cbn; lia|]; split; [apply turns_cons; auto|]; split.
    1,3: intros [|fuel] Hf; [lia|]; rewrite <- app_assoc, (loop_line fuel n it line chunks _ w Hl Harr), Ev;
      rewrite Hr by lia; cbn [nth]; f_equal; f_equal; destruct k; [reflexivity|]; cbn [nth]; apply nth_indep;
      destruct Ht as (_ & L & _); rewrite L, firstn_length; lia.
    1,2: destruct Hd as [(-> & Hn & ->)|(before & code & -> & Hn & ->)];
      [left; split; [reflexivity|]; split; [intros r [<-|H]; [intros [c Hc']; discriminate|auto]|reflexivity]
      |right; eexists (_ :: before), code; split; [reflexivity|]; split; [intros r [<-|H]; [intros [c Hc']; discriminate|auto]|reflexivity]].
    exists 1, [Leave code], [w'], (Exited code). split; [cbn; lia|]. split.
    + apply turns_cons; auto. split; [auto|split; [auto|intros [|i] x H; discriminate]].
    + split; [|right; exists [], code; split; [reflexivity|]; split; [intros r []|reflexivity]].
      intros [|fuel] Hf; [lia|]. rewrite <- app_assoc, (loop_line fuel n it line chunks _ w Hl Harr), Ev. reflexivity.
Qed.
End Sessions.
(** C64, sessions.  Whatever the statements do, and however the input is cut into pieces: each
    is compiled in a class of its own and run with [it] the value of the last statement that
    was answered; those that fail change nothing but the world; the session goes on until a
    statement ends the program, or until quit or the end of the input, and then answers [it]. *)
Theorem C64_session_partial : forall W C (load : text -> W -> W * (option C + raised)) run report lines arrivals last w,
  Forall statement lines -> Forall2 arrives lines arrivals -> closing last ->
  exists k rs ws e,
    k <= length lines /\ turns load run report w (firstn k lines) rs ws /\
    (forall fuel, length lines < fuel -> shell_start load run report fuel (concat arrivals ++ last) w = Some (nth k (w :: ws) w, e)) /\
    (k = length lines /\ (forall r, In r rs -> ~ leaves r) /\ e = Returned (latest rs) \/
     exists before code, rs = before ++ [Leave code] /\ (forall r, In r before -> ~ leaves r) /\ e = Exited code).
Proof.
  intros W C load run report lines arrivals last w Hs Ha Hc.
  exact (loop_session load run report lines arrivals last Hs Ha Hc 0 VNil w).
Qed.
Print Assumptions C64_session_partial.
(** * What is missing *)
(** An empty line ends the session, although more is to come. *)
Theorem C64_empty_line_refuted : forall W C (load : text -> W -> W * (option C + raised)) run report fuel rest w,
  arrives "" [String end_of_line ""] /\
  shell_start load run report (S fuel) ([String end_of_line ""] ++ rest) w = Some (w, Returned VNil).
Proof.
  intros. split; [|reflexivity]. exists [], ""%string. split; [reflexivity|]. split; [constructor|]. split; [intros []|reflexivity].
Qed.
Print Assumptions C64_empty_line_refuted.
(** [ 1). (2 ] is no expression, but the class made of it compiles: it has one statement more. *)
Definition two_in_one : text := str "1). (2".
Theorem C64_unbalanced_refuted : exists ts all c st st',
  LexSpec.read_tokens 200 (length ts + 1) (new_lexer two_in_one) = Ok (ts ++ [LexSpec.end_token], st) /\
  (forall e, ~ G_expr not_super_operand quiet_first_arg assignable e ts) /\
  LexSpec.read_tokens 200 (length all + 1) (new_lexer (shell_source 0 two_in_one)) = Ok (all ++ [LexSpec.end_token], st') /\
  ast_class all = Ok (c, []) /\
  map m_body (c_methods _ c) =
    [Some ([str "tmp"], [Asgn [str "tmp"] (Lit (LInt false (str "1"))); Lit (LInt false (str "2"));
                         Send false (Lit (LStr (str "it = "))) (str "print") []],
           Some (Send false (Var (str "tmp")) (str "println") []))].
Proof.
  exists [(Integer, str "1"); (EndTerm, str ")"); (Period, str "."); (NewTerm, str "("); (Integer, str "2")].
  exists (before_toks 0 ++ [(Integer, str "1"); (EndTerm, str ")"); (Period, str "."); (NewTerm, str "("); (Integer, str "2")] ++ after_toks).
  do 3 eexists. split; [vm_compute; reflexivity|]. split; [|split; [vm_compute; reflexivity|split; vm_compute; reflexivity]].
  intros e H. pose proof (C38_ast_reads_the_tree_partial e _ [] H) as E. rewrite app_nil_r in E.
  assert (K : ends_expression (kind [])).
  { repeat split; try discriminate; intros K; [destruct K; discriminate|]. cbn in K. repeat destruct K as [K|K]; try discriminate. contradiction. }
  specialize (E K). vm_compute in E. discriminate.
Qed.
Print Assumptions C64_unbalanced_refuted.
(** A line with a string that is not closed: the shell's own quote closes it, and the next one
    opens a string without an end.  The lexer never comes to the end of it (C35), and what
    comes before it is the beginning of a class, so that the parser asks for it. *)
Definition open_string : text := str "'abc".
Theorem C64_open_string_refuted : exists ts,
  (forall fuel, LexSpec.read_tokens fuel (length ts + 1) (new_lexer (shell_source 0 open_string)) = Err OutOfFuel) /\
  (exists rest c, rest <> [] /\ ast_class (ts ++ rest) = Ok (c, [])) /\ forall c, ast_class ts <> Ok (c, []).
Proof.
  pose (more := [(STString, str "abc ). "); (Identifier, str "it"); (Equal, str "=")]).
  exists (before_toks 0 ++ more). split; [|split].
  - intros fuel. apply (LexProps.C35_unclosed_string_diverges _ _ [space] (str " print. ^tmp println ) )")).
    + unfold shell_source. rewrite app_assoc. fold (class_name 0). eapply toks_app; [apply before_ok; lia|].
      apply (tok [] (STString, str "abc ). ") (str "'abc ). '") (str "it = ' print. ^tmp println ) )")); [reflexivity|nogap| |exact I|].
      { apply (LexSpec.sp_string (str "abc ). ") (str "abc ). ")). repeat (apply LexSpec.den_plain; [discriminate|discriminate|]). constructor. }
      apply (tok [] (Identifier, str "it") (str "it") (str " = ' print. ^tmp println ) )")); [reflexivity|nogap|sp_word|apply (not_after_space _ (str "it")); sp_word|].
      apply (tok [space] (Equal, str "=") (str "=") (str " ' print. ^tmp println ) )")); [reflexivity|apply gap_space|sp_op|apply (not_after_space _ (str "=")); sp_op|].
      constructor.
    + apply gap_space.
    + repeat (apply LexSpec.un_plain; [discriminate|discriminate|]). constructor.
  - exists [(Integer, str "1"); (EndTerm, str ")"); (EndTerm, str ")"); (EndTerm, str ")")]. eexists. split; [discriminate|]. vm_compute. reflexivity.
  - intros c. vm_compute. discriminate.
Qed.
Print Assumptions C64_open_string_refuted.

(** * A session *)
(** The world is the list of texts compiled; a text with foo does not compile, the others
    answer the number of texts compiled so far. *)
Definition toy_load (source : text) (w : list text) : list text * (option unit + raised) :=
  (w ++ [source], if existsb (fun c => Ascii.eqb c "?"%char) source then inr RParse else inl (Some tt)).
Definition toy_run (c : unit) (it : value) (w : list text) : list text * (value + raised) :=
  (w, match it with
      | VNil => inl (VInt 1)
      | VInt n => if Nat.leb 4 (length w) then inr (RExit 7) else inl (VInt (n + 1))
      | _ => inr (RExc AttributeError)
      end).
Definition toy_lines : list string := ["1"; "?"; "it + it longer than thirty-two characters"; "system exit: 7"; "never"]%string.
Definition eol : string := String end_of_line "".
Definition toy_chunks : list (list string) :=
  [["1" ++ eol]; ["?" ++ eol]; ["it + it longer than thirty-two c"; "haracters" ++ eol]; ["system exit: 7" ++ eol]; ["never" ++ eol]]%string.
Example C64_nonvacuous :
  Forall statement toy_lines /\ Forall2 arrives toy_lines toy_chunks /\ closing (["quit" ++ eol]%string) /\
  turns toy_load toy_run (fun _ w => w) [] (firstn 4 toy_lines) [Answer (VInt 1); Failure; Answer (VInt 2); Leave 7]
    (map (fun k => map (fun p => shell_source (fst p) (str (snd p))) (firstn k [(0, "1"); (1, "?"); (2, "it + it longer than thirty-two characters"); (3, "system exit: 7")]%Z%string)) [1; 2; 3; 4]%nat) /\
  option_map snd (shell_start toy_load toy_run (fun _ w => w) 9 (concat toy_chunks) []) = Some (Exited 7) /\
  option_map snd (shell_start toy_load toy_run (fun _ w => w) 9 (concat (firstn 3 toy_chunks)) []) = Some (Returned (VInt 2)).
Proof.
  assert (Z : forall c s, rsplit1 c s = None -> no_char c s) by (intros; apply rsplit1_none; auto).
  assert (A : forall s, no_char end_of_line s -> arrives s [(s ++ eol)%string]).
  { intros s H. exists [], s. split; [reflexivity|]. split; [constructor|]. split; [exact H|reflexivity]. }
  split; [|split; [|split; [|split; [|split; vm_compute; reflexivity]]]].
  - unfold toy_lines. repeat (apply Forall_cons; [split; discriminate|]). apply Forall_nil.
  - unfold toy_lines, toy_chunks. apply Forall2_cons; [apply A, Z; reflexivity|]. apply Forall2_cons; [apply A, Z; reflexivity|].
    apply Forall2_cons; [|apply Forall2_cons; [apply A, Z; reflexivity|apply Forall2_cons; [apply A, Z; reflexivity|apply Forall2_nil]]].
    exists ["it + it longer than thirty-two c"]%string, "haracters"%string. split; [reflexivity|]. split; [|split; [apply Z; reflexivity|reflexivity]].
    apply Forall_cons; [split; [discriminate|apply Z; reflexivity]|apply Forall_nil].
  - right. right. exists ["quit" ++ eol]%string, []. split; [reflexivity|]. apply A, Z. reflexivity.
  - split; [reflexivity|]. split; [reflexivity|]. intros i line H.
    destruct i as [|[|[|[|i]]]]; cbn in H; try (injection H as <-; do 2 eexists; split; [reflexivity|split; [reflexivity|vm_compute; reflexivity]]).
    destruct i; discriminate.
Qed.
(** [ #(1 2) at: (it + 1) ] as a statement *)
Example C64_nonvacuous_statement :
  let s := str "#(1 2) at: it + 1 ""comment"" " in
  let ts := [(Pound, str "#"); (NewTerm, str "("); (Integer, str "1"); (Integer, str "2"); (EndTerm, str ")");
             (Keyword, str "at:"); (Identifier, str "it"); (Plus, str "+"); (Integer, str "1")] in
  let e := Send false (Lit (LArr [LInt false (str "1"); LInt false (str "2")])) (str "at:")
             [Send false (Var (str "it")) (str "+") [Lit (LInt false (str "1"))]] in
  (exists rest, LexSpec.tokens s ts rest) /\ ast_expression ts = Ok (e, []) /\
  G_expr not_super_operand quiet_first_arg assignable e ts.
Proof.
  cbv zeta. split; [|split; [vm_compute; reflexivity|]].
  - apply (LexProps.C33_tokens_iff_grammar _ _ 100); [cbn; lia|]. split; [eexists; vm_compute; reflexivity|].
    repeat (apply Forall_cons; [discriminate|]). apply Forall_nil.
  - apply E_eval.
    apply (K_send not_super_operand quiet_first_arg assignable _ false
             [(Pound, str "#"); (NewTerm, str "("); (Integer, str "1"); (Integer, str "2"); (EndTerm, str ")")] (str "at:") _
             [(Keyword, str "at:"); (Identifier, str "it"); (Plus, str "+"); (Integer, str "1")]); [| |discriminate|intros H; discriminate].
    + apply B_unary, U_primary, P_lit. apply (L_arr (str "#") (str "(") (str ")") _ ([(Integer, str "1")] ++ [(Integer, str "2")] ++ [])).
      apply L_cons; [constructor|]. apply L_cons; constructor.
    + apply (A_cons not_super_operand quiet_first_arg assignable (str "at:") _ false [(Identifier, str "it"); (Plus, str "+"); (Integer, str "1")] [] [] []); [|constructor].
      apply (B_send not_super_operand quiet_first_arg assignable _ false [(Identifier, str "it")] Plus (str "+") _ false [(Integer, str "1")]).
      * apply B_unary, U_primary, P_name; [left; auto|discriminate].
      * unfold operator_token. cbn. tauto.
      * apply U_primary, P_lit, L_int.
      * reflexivity.
Qed.
