(** Theorems about the parsers.  [spells e ts] (ParseSpec) says that the tokens [ts] are a
    way of writing the tree [e]. *)
From Coq Require Import ZArith Bool String Ascii List Lia.
From Verif Require Import Base TxtModel LexModel ParseModel ParseSpec ParseProofs.
Import ListNotations.
Open Scope nat_scope.
Open Scope list_scope.

Lemma ends_stop ts : ends_expression (kind ts) -> stop ts.
Proof.
  intros [A [B [C D]]]. repeat split; auto.
  - destruct (is_ident (kind ts)) eqn:E; auto. exfalso. apply A, name_ident, E.
  - destruct (is_op (kind ts)) eqn:E; auto. exfalso. apply B, operator_op, E.
Qed.

Opaque text_eqb.
(** [go] runs a parser up to its next test of a word or its next loop; [into] enters the loop. *)
Lemma a_binary_loop_S E n k e st : a_binary_loop E n (S k) e st =
  if is_op (kind (fst st)) then
    r <- a_binary_message E n e st ;; let '(e, st) := r in a_binary_loop E n k e st
  else Ok (e, st).
Proof. reflexivity. Qed.
Lemma b_binary_loop_S E n k st : b_binary_loop E n (S k) st =
  if is_op (kind (fst st)) then
    r <- b_binary_message E n st ;; let '(c, st) := r in
    r <- b_binary_loop E n k st ;; let '(c', st) := r in Ok (c ++ c', st)
  else Ok ([], st).
Proof. reflexivity. Qed.
Lemma a_keyword_loop_S E n k st : a_keyword_loop E n (S k) st =
  let '(ts, f) := st in
  match kind ts with
  | Keyword =>
      r <- keyword ts ;; let '(s, ts) := r in
      r <- a_formula E n (ts, f) ;; let '(a, st) := r in
      r <- a_keyword_loop E n k st ;; let '(sel, args, st) := r in
      Ok (s ++ sel, a :: args, st)
  | _ => Ok ([], [], st)
  end.
Proof. reflexivity. Qed.
Lemma b_block_body_S E k blk seen code st : b_block_body E (S k) blk seen code st =
  let '(ts, f) := st in
  match kind ts with
  | Exit => b_result E blk code (tl ts, f)
  | EndBlock =>
      let code := if seen then remove_last_pop code else code in
      let code := if blk && match code with [] => true | _ => false end then [PushNil] else code in
      Ok (code ++ [RetLocal], true, st)
  | EndTerm => Ok (code ++ [RetSelf], true, st)
  | _ =>
      r <- E st ;; let '(c, (ts, f)) := r in
      match accept Period ts with
      | (true, ts) => b_block_body E k blk true (code ++ c ++ [PopTop]) (ts, f)
      | (false, ts) => Ok (code ++ c, false, (ts, f))
      end
  end.
Proof. reflexivity. Qed.
Lemma a_expression_S n st : a_expression (S n) st = a_expression_ (a_expression n) n st.
Proof. reflexivity. Qed.
Lemma b_expression_S n st : b_expression (S n) st = b_expression_ (b_expression n) n st.
Proof. reflexivity. Qed.
Ltac go := lazy -[text_eqb a_expression b_expression a_binary_loop b_binary_loop a_keyword_loop b_keyword_loop
  literal b_literal a_block_body b_block_body a_assignments b_assignments nested_block_signature block_locals app
  t_plus t_minus t_one t_self t_super].
Ltac into := rewrite ?a_expression_S, ?b_expression_S, ?a_binary_loop_S, ?b_binary_loop_S, ?a_keyword_loop_S, ?b_block_body_S.

(** * C38 *)
(** The AST parser reads every way of writing a tree as that tree and stops right behind
    it, unless the operand of an operator is the bare word super, a keyword message to
    super has a message inside its first argument, or self or super is assigned to. *)
Theorem C38_ast_reads_the_tree_partial e ts rest :
  G_expr not_super_operand quiet_first_arg assignable e ts ->
  ends_expression (kind rest) ->
  ast_expression (ts ++ rest) = Ok (e, rest).
Proof.
  intros H Hr. unfold ast_expression.
  destruct ast_follows as [_ [_ [_ [_ [_ [A _]]]]]].
  rewrite (A _ _ H).
  - reflexivity.
  - rewrite app_length. lia.
  - apply quiet_false.
  - apply ends_stop, Hr.
Qed.
Print Assumptions C38_ast_reads_the_tree_partial.

(** The bytecode parser emits the postfix form of the tree, unless the operand of an
    operator is the bare word super, or the operand of + or - is a message to the
    number 1. *)
Theorem C38_bc_emits_the_tree_partial e ts rest :
  G_expr whole_one any_args any_target e ts ->
  ends_expression (kind rest) ->
  exists code, bc_expression (ts ++ rest) = Ok (code, rest) /\ postfix e code.
Proof.
  intros H Hr. unfold bc_expression.
  destruct bc_follows as [_ [_ [_ [_ [_ [A _]]]]]].
  destruct (A _ _ H (S (length (ts ++ rest))) rest) as [c [H1 H2]].
  - rewrite app_length. lia.
  - apply ends_stop, Hr.
  - exists c. rewrite H1. auto.
Qed.
Print Assumptions C38_bc_emits_the_tree_partial.

(** Printing a tree, with parentheses only where they are needed, and reading it gives the
    tree back. *)
Theorem C38_ast_round_trip_partial e rest :
  writable not_super_operand quiet_first_arg assignable e ->
  ends_expression (kind rest) ->
  ast_expression (show e ++ rest) = Ok (e, rest).
Proof. intros H. apply C38_ast_reads_the_tree_partial, show_ok, H. Qed.
Print Assumptions C38_ast_round_trip_partial.

Theorem C38_bc_round_trip_partial e rest :
  writable whole_one any_args any_target e ->
  ends_expression (kind rest) ->
  exists code, bc_expression (show e ++ rest) = Ok (code, rest) /\ postfix e code.
Proof. intros H. apply C38_bc_emits_the_tree_partial, show_ok, H. Qed.
Print Assumptions C38_bc_round_trip_partial.

(** Hence no token sequence is a way of writing two trees. *)
Theorem C38_one_tree_partial e e' ts :
  G_expr not_super_operand quiet_first_arg assignable e ts ->
  G_expr not_super_operand quiet_first_arg assignable e' ts -> e = e'.
Proof.
  intros H H'.
  assert (R : ends_expression (kind [])).
  { repeat split; intros X; try discriminate X.
    - apply name_ident in X. discriminate X.
    - apply operator_op in X. discriminate X. }
  pose proof (C38_ast_reads_the_tree_partial e ts [] H R) as A.
  rewrite (C38_ast_reads_the_tree_partial e' ts [] H' R) in A. congruence.
Qed.
Print Assumptions C38_one_tree_partial.

(** Case 1: [super key: a sel].  The AST parser makes a super send of the message [sel]
    to the argument, for all words [key], [a], [sel]. *)
Theorem C38_ast_super_reaches_into_arguments key a sel :
  a <> t_super ->
  let ts := [ident t_super; (Keyword, key); ident a; ident sel] in
  spells (Send true (Var t_self) key [Send false (Var a) sel []]) ts /\
  ast_expression ts = Ok (Send true (Var t_self) key [Send true (Var a) sel []], []) /\
  exists code, bc_expression ts = Ok (code, []) /\
    postfix (Send true (Var t_self) key [Send false (Var a) sel []]) code.
Proof.
  intros Ha ts.
  assert (G : forall oo (ao : bool -> list expr -> Prop) tok, ao true [Send false (Var a) sel []] ->
     G_expr oo ao tok (Send true (Var t_self) key [Send false (Var a) sel []]) ts).
  { intros oo ao tok Hao. apply E_eval. replace key with (key ++ []) by apply app_nil_r.
    apply (K_send oo ao tok (Var t_self) true [ident t_super] (key ++ []) [Send false (Var a) sel []]
             ((Keyword, key) :: ([ident a] ++ [ident sel]) ++ [])).
    - apply B_unary, U_primary, P_super. left. reflexivity.
    - apply A_cons with (s := false); [|apply A_nil]. apply B_unary.
      apply U_send; [|left; reflexivity]. apply U_primary, P_name; auto. left. reflexivity.
    - discriminate.
    - exact Hao. }
  assert (R : ends_expression (kind [])).
  { repeat split; intros X; try discriminate X.
    - apply name_ident in X. discriminate X.
    - apply operator_op in X. discriminate X. }
  repeat split.
  - apply G. exact I.
  - unfold ts. go. into. go. rewrite text_eqb_refl. go. into. go. into. go. rewrite (text_eqb_neq a) by exact Ha.
    go. into. go. into. go. rewrite app_nil_r. reflexivity.
  - apply (C38_bc_emits_the_tree_partial _ ts []); auto. apply G. exact I.
Qed.
Print Assumptions C38_ast_super_reaches_into_arguments.

(** Case 2: [x + 1 sel] means [x + (1 sel)], which the AST parser reads; the bytecode
    parser stops before [sel]. *)
Theorem C38_bc_message_to_one_is_lost x sel :
  x <> t_super ->
  let ts := [ident x; (Plus, t_plus); (Integer, t_one); ident sel] in
  let e := Send false (Var x) t_plus [Send false (Lit (LInt false t_one)) sel []] in
  spells e ts /\
  ast_expression ts = Ok (e, []) /\
  bc_expression ts = Ok ([PushVar x; IncTop], [ident sel]).
Proof.
  intros Hx ts e.
  assert (G : forall (oo : bool -> text -> bool -> tokens -> Prop) ao tok, oo false t_plus false [(Integer, t_one); ident sel] -> G_expr oo ao tok e ts).
  { intros oo ao tok Hoo. apply E_eval. apply K_binary with (s := false).
    apply (B_send oo ao tok (Var x) false [ident x] Plus t_plus _ false ([(Integer, t_one)] ++ [ident sel])); auto.
    - apply B_unary, U_primary, P_name; auto. left. reflexivity.
    - cbn. tauto.
    - apply U_send; [|left; reflexivity]. apply U_primary, P_lit. constructor. }
  assert (R : ends_expression (kind [])).
  { repeat split; intros X; try discriminate X.
    - apply name_ident in X. discriminate X.
    - apply operator_op in X. discriminate X. }
  assert (GA : G_expr not_super_operand quiet_first_arg assignable e ts).
  { apply G. reflexivity. }
  split; [apply G; exact I|]. split.
  - apply (C38_ast_reads_the_tree_partial _ ts []); auto.
  - unfold ts. go. into. go. rewrite (text_eqb_neq x) by exact Hx. go. into. go. rewrite !text_eqb_refl.
    go. into. go. reflexivity.
Qed.
Print Assumptions C38_bc_message_to_one_is_lost.

(** So the method [m = ( x + 1 abs )] is a syntax error for the bytecode compiler only. *)
Theorem C38_bc_rejects_message_to_one :
  let x := str "x" in
  let source := [ident (str "m"); (Equal, str "="); (NewTerm, str "("); ident x; (Plus, t_plus);
                 (Integer, t_one); ident (str "abs"); (EndTerm, str ")")] in
  let e := Send false (Var x) t_plus [Send false (Lit (LInt false t_one)) (str "abs") []] in
  ast_method source = Ok ({| m_selector := str "m"; m_params := []; m_body := Some ([], [e], None) |}, []) /\
  bc_method_ source = Err PyException.
Proof. split; vm_compute; reflexivity. Qed.
Print Assumptions C38_bc_rejects_message_to_one.

(** Case 3: [a + super + b] means [(a + self) + b] with ordinary messages; both parsers
    make the second one a super send. *)
Theorem C38_super_operand_leaks a b :
  a <> t_super -> b <> t_super ->
  let ts := [ident a; (Plus, t_plus); ident t_super; (Plus, t_plus); ident b] in
  let e s := Send s (Send false (Var a) t_plus [Var t_self]) t_plus [Var b] in
  spells (e false) ts /\
  ast_expression ts = Ok (e true, []) /\
  exists code, bc_expression ts = Ok (code, []) /\ postfix (e true) code.
Proof.
  intros Ha Hb ts e. split; [|split].
  - apply E_eval, K_binary with (s := false).
    apply (B_send any_operand any_args any_target (Send false (Var a) t_plus [Var t_self]) false
             ([ident a] ++ (Plus, t_plus) :: [ident t_super]) Plus t_plus (Var b) false [ident b]).
    + apply B_send with (s' := true).
      * apply B_unary, U_primary, P_name; auto. left. reflexivity.
      * cbn. tauto.
      * apply U_primary, P_super. left. reflexivity.
      * exact I.
    + cbn. tauto.
    + apply U_primary, P_name; auto. left. reflexivity.
    + exact I.
  - unfold ts. go. into. go. rewrite (text_eqb_neq a) by exact Ha. go. into. go. rewrite text_eqb_refl.
    go. into. go. rewrite (text_eqb_neq b) by exact Hb. go. into. go. reflexivity.
  - exists ([PushVar a] ++ ([PushVar t_self] ++ []) ++ [SendMsg false t_plus]
            ++ ([PushVar b] ++ []) ++ [SendMsg true t_plus]). split.
    + unfold ts. go. into. go. rewrite (text_eqb_neq a) by exact Ha. go. into. go. rewrite !text_eqb_refl.
      go. into. go. rewrite !text_eqb_refl. go. rewrite (text_eqb_neq b) by exact Hb. go. into. go. reflexivity.
    + unfold e.
      change (postfix (Send true (Send false (Var a) t_plus [Var t_self]) t_plus [Var b])
        (([PushVar a] ++ ([PushVar t_self] ++ []) ++ [SendMsg false t_plus])
            ++ ([PushVar b] ++ []) ++ [SendMsg true t_plus])).
      repeat (constructor; try exact I).
Qed.
Print Assumptions C38_super_operand_leaks.

(** So neither parser reads every expression as the grammar says. *)
Theorem C38_ast_refuted :
  exists e ts, spells e ts /\ ast_expression ts <> Ok (e, []).
Proof.
  exists (Send true (Var t_self) (str "k:") [Send false (Var (str "a")) (str "b") []]).
  exists [ident t_super; (Keyword, str "k:"); ident (str "a"); ident (str "b")].
  destruct (C38_ast_super_reaches_into_arguments (str "k:") (str "a") (str "b")) as [A [B _]]; [discriminate|].
  split; [exact A|]. rewrite B. discriminate.
Qed.
Print Assumptions C38_ast_refuted.
Theorem C38_bc_refuted :
  exists e ts, spells e ts /\ forall code, bc_expression ts <> Ok (code, []).
Proof.
  destruct (C38_bc_message_to_one_is_lost (str "x") (str "abs")) as [A [_ B]]; [discriminate|].
  do 2 eexists. split; [exact A|]. intros code. rewrite B. discriminate.
Qed.
Print Assumptions C38_bc_refuted.

(** [super + a b: -1 abs negated * #(1 #foo) c: [:x :y | | t | t := u := x + 1. ^ t. ]] *)
Definition sample : expr :=
  Send false
    (Send true (Var t_self) t_plus [Send false (Var (str "a")) (str "b") []])
    (str "k:c:")
    [Send false (Send false (Send false (Lit (LInt true t_one)) (str "abs") []) (str "negated") []) (str "*")
       [Lit (LArr [LInt false t_one; LSym (str "foo")])];
     Blk [str "x"; str "y"] [str "t"]
       [Asgn [str "t"; str "u"] (Send false (Var (str "x")) t_plus [Lit (LInt false t_one)])]
       (Some (Var (str "t")))].
Example C38_nonvacuous_writable :
  writable not_super_operand quiet_first_arg assignable sample /\
  writable whole_one any_args any_target sample /\ no_send sample = false.
Proof.
  assert (S1 : forall t, t <> t_super -> t <> t_self -> assignable t) by (split; auto).
  split; [|split; [|reflexivity]]; unfold sample.
  - repeat first [match goal with H : Some _ = Some _ |- _ => injection H as <- end
      | match goal with H : [_] = [_] |- _ => injection H as <- end
      | discriminate | exact I | reflexivity | apply S1; discriminate | progress intros
      | constructor ].
  - repeat first [match goal with H : Some _ = Some _ |- _ => injection H as <- end
      | match goal with H : [_] = [_] |- _ => injection H as <- end
      | discriminate | exact I | reflexivity | progress intros
      | constructor ].
    cbn in H2. congruence.
Qed.
Example C38_nonvacuous_runs :
  ast_expression (show sample ++ [(Period, str ".")]) = Ok (sample, [(Period, str ".")]) /\
  length (show sample) = 37.
Proof. split; vm_compute; reflexivity. Qed.
Example C38_nonvacuous_ends : ends_expression Period /\ ends_expression EndTerm /\ ends_expression EndBlock.
Proof.
  repeat split; intros X; try discriminate X;
    try (apply name_ident in X; discriminate X); try (apply operator_op in X; discriminate X).
Qed.

(** * C56: methods and classes *)
Theorem C56_ast_method_partial m ts rest :
  G_method not_super_operand quiet_first_arg assignable m ts ->
  ast_method (ts ++ rest) = Ok (m, rest).
Proof.
  intros H. unfold ast_method. rewrite (ast_method_ok m); auto. rewrite app_length. lia.
Qed.
Print Assumptions C56_ast_method_partial.
Theorem C56_bc_method_partial m ts rest :
  G_method whole_one any_args any_target m ts ->
  exists b, bc_method_ (ts ++ rest) = Ok (b, rest) /\ compiles m b.
Proof.
  intros H. unfold bc_method_.
  destruct (bc_method_ok m ts (S (length (ts ++ rest))) rest H) as [b [H1 H2]].
  - rewrite app_length. lia.
  - exists b. rewrite H1. auto.
Qed.
Print Assumptions C56_bc_method_partial.

(** The AST parser reads a class definition as exactly its name, its superclass, its fields
    and its methods, in their order. *)
Theorem C56_ast_class_partial c ts rest :
  G_class not_super_operand quiet_first_arg assignable c ts ->
  ast_class (ts ++ rest) = Ok (c, rest).
Proof.
  intros H. unfold ast_class.
  destruct (class_ok not_super_operand quiet_first_arg assignable (S (length (ts ++ rest)))
              (a_method (S (length (ts ++ rest)))) eq) with (c := c) (ts := ts) (rest := rest)
    as [b [H1 [H2 [H3 [H4 [H5 [H6 H7]]]]]]]; auto.
  - intros m ts' rest' Hm Hl. exists m. split; auto. apply ast_method_ok; auto.
  - rewrite app_length. lia.
  - rewrite H1. cbn [bind].
    assert (L : forall (x y : list method), Forall2 eq x y -> x = y).
    { induction 1; subst; auto. }
    apply L in H5. apply L in H7. clear H H1 L. destruct b, c.
    cbn in H2, H3, H4, H5, H6, H7. subst. reflexivity.
Qed.
Print Assumptions C56_ast_class_partial.
(** The bytecode parser compiles each of them. *)
Theorem C56_bc_class_partial c ts rest :
  G_class whole_one any_args any_target c ts ->
  exists b, bc_class (ts ++ rest) = Ok (b, rest) /\ compiles_class c b.
Proof.
  intros H. unfold bc_class.
  destruct (class_ok whole_one any_args any_target (S (length (ts ++ rest)))
              (b_method (S (length (ts ++ rest)))) compiles) with (c := c) (ts := ts) (rest := rest)
    as [b [H1 H2]]; auto.
  - intros m ts' rest' Hm Hl. apply bc_method_ok; auto.
  - rewrite app_length. lia.
  - exists b. rewrite H1. split; auto.
Qed.
Print Assumptions C56_bc_class_partial.

(** A statement must be ended by a period for the bytecode parser; for the AST parser not:
    [sel = ( a b c )] aside, two primaries in a row are two statements. *)
Theorem C56_missing_period sel a b :
  let source := [ident sel; (Equal, str "="); (NewTerm, str "("); (Integer, a); (Integer, b); (EndTerm, str ")")] in
  ast_method source = Ok ({| m_selector := sel; m_params := [];
                             m_body := Some ([], [Lit (LInt false a); Lit (LInt false b)], None) |}, []) /\
  bc_method_ source = Err PyException.
Proof. intros source. split; reflexivity. Qed.
Print Assumptions C56_missing_period.

(** [Foo = Bar ( | f | at: x = ( ^ f ) sz = primitive ---- new = ( ^ super new ) )] *)
Definition sample_class : classdef method :=
  {| c_name := str "Foo"; c_super := Some (str "Bar"); c_fields := [str "f"];
     c_methods := [ {| m_selector := str "at:"; m_params := [str "x"];
                       m_body := Some ([], [], Some (Var (str "f"))) |};
                    {| m_selector := str "sz"; m_params := []; m_body := None |} ];
     c_class_fields := [];
     c_class_methods := [ {| m_selector := str "new"; m_params := [];
                             m_body := Some ([], [], Some (Send true (Var t_self) (str "new") [])) |} ] |}.
Definition sample_source : tokens :=
  [ident (str "Foo"); (Equal, str "=")] ++ [ident (str "Bar")] ++ (NewTerm, str "(")
  :: ((Or, str "|") :: [ident (str "f")] ++ [(Or, str "|")])
  ++ (([(Keyword, str "at:"); ident (str "x")] ++ (Equal, str "=") :: (NewTerm, str "(") :: []
        ++ ((Exit, str "^") :: [ident (str "f")] ++ []) ++ [(EndTerm, str ")")])
      ++ ([ident (str "sz")] ++ [(Equal, str "="); (Primitive, str "primitive")]) ++ [])
  ++ ((Separator, str "----") :: []
      ++ (([ident (str "new")] ++ (Equal, str "=") :: (NewTerm, str "(") :: []
            ++ ((Exit, str "^") :: ([ident t_super] ++ [ident (str "new")]) ++ []) ++ [(EndTerm, str ")")])
          ++ []))
  ++ [(EndTerm, str ")")].
Example C56_nonvacuous :
  G_class not_super_operand quiet_first_arg assignable sample_class sample_source /\
  G_class whole_one any_args any_target sample_class sample_source.
Proof.
  assert (G : forall oo ao tok, G_class oo ao tok sample_class sample_source).
  { intros. unfold sample_class, sample_source.
    apply (CD oo ao tok (str "Foo") (str "=") (Some (str "Bar")) [ident (str "Bar")] (str "(") [str "f"]).
    - right. eexists. split; reflexivity.
    - apply D_some. repeat constructor.
    - apply MS_cons; [|apply MS_cons; [|apply MS_nil]].
      + apply M_body.
        * apply M_keyword; [discriminate|].
          apply (KP_cons (str "at:") Identifier (str "x") [] [] []); [left; reflexivity | constructor].
        * constructor.
        * apply S_return; [|left; reflexivity].
          apply E_eval, K_binary with (s := false), B_unary, U_primary, P_name; [left; reflexivity | discriminate].
      + apply M_prim, M_unary. left. reflexivity.
    - discriminate.
    - apply CS_some.
      + constructor.
      + apply MS_cons; [|apply MS_nil]. apply M_body.
        * apply M_unary. left. reflexivity.
        * constructor.
        * apply S_return; [|left; reflexivity].
          apply E_eval, K_binary with (s := false), B_unary, U_send; [|left; reflexivity].
          apply U_primary, P_super. left. reflexivity.
      + discriminate. }
  split; apply G.
Qed.
