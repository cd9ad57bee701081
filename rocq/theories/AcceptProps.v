(** Reading a source ends, and what is accepted.  The languages are in AcceptSpec: [source] is
    the language of the trees of ParseSpec; [ast_source] and [bc_source] are what the parser
    of each variant reads. *)
From Coq Require Import ZArith Bool String Ascii List Lia.
From Verif Require Import Base TxtModel LexModel LexSpec LexProps ParseModel ParseSpec ParseProps AcceptSpec AcceptProofs.
Import ListNotations.
Open Scope nat_scope.
Open Scope list_scope.

(** * Reading ends *)
(** Whatever the tokens are, the parser answers with a class or stops with a syntax error. *)
Theorem C73_ast_ends : forall ts,
  (exists c rest, ast_class ts = Ok (c, rest)) \/ ast_class ts = Err PyException.
Proof. exact (rec_ends _ _ ast_class_wp). Qed.
Print Assumptions C73_ast_ends.

Theorem C73_bc_ends : forall ts,
  (exists c rest, bc_class ts = Ok (c, rest)) \/ bc_class ts = Err PyException.
Proof. exact (rec_ends _ _ bc_class_wp). Qed.
Print Assumptions C73_bc_ends.

Theorem C73_method_ends : forall ts,
  ((exists m rest, ast_method ts = Ok (m, rest)) \/ ast_method ts = Err PyException) /\
  ((exists m rest, bc_method_ ts = Ok (m, rest)) \/ bc_method_ ts = Err PyException).
Proof. intros ts. split; [apply (rec_ends _ _ ast_method_wp) | apply (rec_ends _ _ bc_method_wp)]. Qed.
Print Assumptions C73_method_ends.

(** For a text with no unclosed string, the tokens come to an end or are refused, and then
    both parsers answer. *)
Theorem C73_text_ends_partial : forall s : text,
  ~ (exists ts g raw, LexSpec.tokens s ts (g ++ chars "'" ++ raw) /\ gap g /\ unclosed raw) ->
  exists n, n <= length s + 1 /\ forall fuel, length s + 1 < fuel ->
    read_tokens fuel n (new_lexer s) = Err PyException \/
    exists ts t st, read_tokens fuel n (new_lexer s) = Ok (ts ++ [t], st) /\ fst t = NONE /\
      ((exists c rest, ast_class ts = Ok (c, rest)) \/ ast_class ts = Err PyException) /\
      ((exists c rest, bc_class ts = Ok (c, rest)) \/ bc_class ts = Err PyException).
Proof.
  intros s H. destruct (C35_terminates_partial s H) as [n [Hn Hf]]. exists n. split; [exact Hn|].
  intros fuel L. destruct (Hf fuel L) as [[ts [t [st [A B]]]] | E]; [|left; exact E].
  right. exists ts, t, st. split; [exact A|]. split; [exact B|]. split; [apply C73_ast_ends | apply C73_bc_ends].
Qed.
Print Assumptions C73_text_ends_partial.

(** * What is accepted *)
Theorem C73_ast_accepts : forall ts rest,
  (exists c, ast_class ts = Ok (c, rest)) <-> exists pre, ts = pre ++ rest /\ ast_source pre.
Proof. exact (rec_accepts _ _ ast_class_wp ast_class_complete). Qed.
Print Assumptions C73_ast_accepts.

Theorem C73_bc_accepts : forall ts rest,
  (exists c, bc_class ts = Ok (c, rest)) <-> exists pre, ts = pre ++ rest /\ bc_source pre.
Proof. exact (rec_accepts _ _ bc_class_wp bc_class_complete). Qed.
Print Assumptions C73_bc_accepts.

Theorem C73_ast_method_accepts : forall ts rest,
  (exists m, ast_method ts = Ok (m, rest)) <-> exists pre, ts = pre ++ rest /\ ast_method_source pre.
Proof. exact (rec_accepts _ _ ast_method_wp ast_method_complete). Qed.
Print Assumptions C73_ast_method_accepts.

Theorem C73_bc_method_accepts : forall ts rest,
  (exists m, bc_method_ ts = Ok (m, rest)) <-> exists pre, ts = pre ++ rest /\ bc_method_source pre.
Proof. exact (rec_accepts _ _ bc_method_wp bc_method_complete). Qed.
Print Assumptions C73_bc_method_accepts.

(** A syntax error is reported exactly when no beginning of the tokens is a source. *)
Theorem C73_refuses : forall ts,
  (ast_class ts = Err PyException <-> forall pre rest, ts = pre ++ rest -> ~ ast_source pre) /\
  (bc_class ts = Err PyException <-> forall pre rest, ts = pre ++ rest -> ~ bc_source pre).
Proof.
  intros ts. split; symmetry;
    [apply (rec_refuses _ _ ast_class_wp ast_class_complete) | apply (rec_refuses _ _ bc_class_wp bc_class_complete)].
Qed.
Print Assumptions C73_refuses.

(** * What follows the class does not matter *)
Theorem C73_ast_rest_ignored : forall ts c rest, ast_class ts = Ok (c, rest) ->
  exists pre, ts = pre ++ rest /\ forall rest', ast_class (pre ++ rest') = Ok (c, rest').
Proof.
  intros ts c rest E. destruct (rec_rest _ _ ast_class_wp ast_class_complete _ _ _ E) as [pre [A [_ B]]]. eauto.
Qed.
Print Assumptions C73_ast_rest_ignored.

Theorem C73_bc_rest_ignored : forall ts c rest, bc_class ts = Ok (c, rest) ->
  exists pre, ts = pre ++ rest /\ forall rest', bc_class (pre ++ rest') = Ok (c, rest').
Proof.
  intros ts c rest E. destruct (rec_rest _ _ bc_class_wp bc_class_complete _ _ _ E) as [pre [A [_ B]]]. eauto.
Qed.
Print Assumptions C73_bc_rest_ignored.

(** At most one beginning of a token list is a source. *)
Theorem C73_one_end : forall p r p' r', p ++ r = p' ++ r' ->
  (ast_source p -> ast_source p' -> p = p') /\ (bc_source p -> bc_source p' -> p = p').
Proof.
  intros p r p' r' E. split; intros H H'.
  - exact (rec_one_end _ _ ast_class_complete p r p' r' H H' E).
  - exact (rec_one_end _ _ bc_class_complete p r p' r' H H' E).
Qed.
Print Assumptions C73_one_end.

(** * The language and the two parsers *)
(** [source] is exactly what the trees of ParseSpec can be written as. *)
Theorem C73_source : forall ts,
  source ts <-> exists c, G_class any_operand any_args any_target c ts.
Proof.
  intros ts. split.
  - exact (have_class every_operand any_target ts).
  - intros [c H]. exact (forget_class _ _ _ c ts H).
Qed.
Print Assumptions C73_source.

(** The bytecode parser accepts nothing outside the language. *)
Theorem C73_bc_sound : forall ts c rest, bc_class ts = Ok (c, rest) ->
  exists pre, ts = pre ++ rest /\ source pre.
Proof.
  intros ts c rest E. destruct (rec_rest _ _ bc_class_wp bc_class_complete _ _ _ E) as [pre [A [B _]]].
  exists pre. split; [exact A | apply bc_source_source, B].
Qed.
Print Assumptions C73_bc_sound.

(** It reads each source of the language in which the 1 of [+ 1] or [- 1] gets no message. *)
Theorem C73_bc_reads_partial : forall ts, source ts -> no_message_to_one ts ->
  exists c, forall rest, bc_class (ts ++ rest) = Ok (c, rest).
Proof. intros ts H N. apply bc_class_complete, source_bc; assumption. Qed.
Print Assumptions C73_bc_reads_partial.

(** The AST parser reads each source of the language with no assignment to [self] or [super]. *)
Theorem C73_ast_reads_partial : forall ts, source ts -> no_assignment_to_self ts ->
  exists c, forall rest, ast_class (ts ++ rest) = Ok (c, rest).
Proof. intros ts H N. eapply ast_class_complete, source_ast; eassumption. Qed.
Print Assumptions C73_ast_reads_partial.

(** So a class that one variant reads is read by the other, to the same token. *)
Theorem C73_ast_reads_what_bc_reads_partial : forall ts c rest,
  bc_class ts = Ok (c, rest) -> no_assignment_to_self ts ->
  exists c', ast_class ts = Ok (c', rest).
Proof.
  intros ts c rest E N. destruct (rec_rest _ _ bc_class_wp bc_class_complete _ _ _ E) as [pre [-> [B _]]].
  destruct (no_assignment_app _ _ N) as [N' _].
  destruct (ast_class_complete pre) as [c' H]; [eapply source_ast; eassumption|]. eauto.
Qed.
Print Assumptions C73_ast_reads_what_bc_reads_partial.

(** * Where the full claims fail *)
Definition one_method (body : tokens) : tokens :=
  [ident (str "Foo"); (Equal, str "="); (NewTerm, str "("); ident (str "m"); (Equal, str "="); (NewTerm, str "(")]
  ++ body ++ [(EndTerm, str ")"); (EndTerm, str ")")].

(** The AST parser also reads sources that are not in the language: [3 4] without a period. *)
Theorem C73_ast_sound_refuted :
  ~ (forall ts c rest, ast_class ts = Ok (c, rest) -> exists pre, ts = pre ++ rest /\ source pre).
Proof.
  intros H. set (ts := one_method [(Integer, str "3"); (Integer, str "4")]).
  assert (A : exists c, ast_class ts = Ok (c, [])) by (eexists; vm_compute; reflexivity).
  destruct A as [c A]. destruct (H ts c [] A) as [pre [E S]]. rewrite app_nil_r in E. subst pre.
  destruct (bc_class_complete ts) as [c' B].
  - apply source_bc; [exact S|]. intros before k op k' m after E _ _; vm_compute in E;
      repeat (destruct before as [|? before]; cbn in E; [discriminate E|]; injection E as _ E);
      destruct before; discriminate E.
  - specialize (B []). rewrite app_nil_r in B. vm_compute in B. discriminate B.
Qed.
Print Assumptions C73_ast_sound_refuted.

(** The AST parser refuses [self := 1], which the bytecode parser reads. *)
Theorem C73_ast_reads_refuted :
  ~ (forall ts, source ts -> exists c, forall rest, ast_class (ts ++ rest) = Ok (c, rest)).
Proof.
  intros H. set (ts := one_method [ident (str "self"); (Assign, str ":="); (Integer, str "1")]).
  assert (A : exists c, bc_class ts = Ok (c, [])) by (eexists; vm_compute; reflexivity).
  destruct A as [c A]. destruct (C73_bc_sound _ _ _ A) as [pre [E S]]. rewrite app_nil_r in E. subst pre.
  destruct (H ts S) as [c' B]. specialize (B []). rewrite app_nil_r in B. vm_compute in B. discriminate B.
Qed.
Print Assumptions C73_ast_reads_refuted.

(** The bytecode parser refuses [x + 1 abs], which the AST parser reads. *)
Theorem C73_bc_reads_refuted :
  ~ (forall ts, source ts -> exists c, forall rest, bc_class (ts ++ rest) = Ok (c, rest)).
Proof.
  intros H.
  set (body := [ident (str "x"); (Plus, str "+"); (Integer, str "1"); ident (str "abs")]).
  assert (S : source (one_method body)).
  { apply (WC _ _ _ (str "Foo") (str "=") [] (str "(")
             ([ident (str "m")] ++ (Equal, str "=") :: (NewTerm, str "(") :: [] ++ body ++ [(EndTerm, str ")")]) [] (str ")"));
      [left; reflexivity | | constructor].
    apply (WX _ _ _ [] []); [constructor | | discriminate].
    match goal with |- W_methods _ _ _ ?l => rewrite <- (app_nil_r l) end.
    apply WMS_cons; [|constructor]. apply (WM_body _ _ _ (str "m") [] [ident (str "m")] (str "=") (str "(") [] [] body (str ")")).
    - apply M_unary. left. reflexivity.
    - constructor.
    - apply WS_last. rewrite <- (app_nil_r body). apply WE_eval; [|constructor].
      apply (WB _ _ _ false [ident (str "x")]).
      + apply WU_primary, WP_name; [left; reflexivity | split; discriminate].
      + apply (WO_cons _ _ _ false Plus (str "+") false [(Integer, str "1"); ident (str "abs")] []).
        * unfold operator_token. cbn. tauto.
        * apply (WU_send _ _ _ false [(Integer, str "1")]); [|left; reflexivity].
          eapply WU_primary, WP_lit, L_int.
        * exact I.
        * constructor. }
  destruct (H _ S) as [c B]. specialize (B []). rewrite app_nil_r in B. vm_compute in B. discriminate B.
Qed.
Print Assumptions C73_bc_reads_refuted.

(** * Concrete cases *)
Example C73_nonvacuous :
  source sample_source /\ no_assignment_to_self sample_source /\ no_message_to_one sample_source /\
  ast_source sample_source /\ bc_source sample_source /\
  (exists c, bc_class (sample_source ++ [ident (str "x")]) = Ok (c, [ident (str "x")])) /\
  ast_class (removelast sample_source) = Err PyException.
Proof.
  assert (S : source sample_source) by exact (forget_class _ _ _ _ _ (proj1 C56_nonvacuous)).
  assert (N : no_assignment_to_self sample_source).
  { intros before k v a after E. vm_compute in E.
    repeat (destruct before as [|? before]; cbn in E; [discriminate E|]; injection E as _ E);
      destruct before; discriminate E. }
  assert (O : no_message_to_one sample_source).
  { intros before k v k' a after E. vm_compute in E.
    repeat (destruct before as [|? before]; cbn in E; [discriminate E|]; injection E as _ E);
      destruct before; discriminate E. }
  pose proof (source_bc _ S O) as B.
  split; [exact S|]. split; [exact N|]. split; [exact O|]. split; [eapply source_ast; eassumption|]. split; [exact B|].
  split; [|vm_compute; reflexivity].
  destruct (bc_class_complete _ B) as [c Hc]. eauto.
Qed.
