(** Proofs about the parsers. *)
From Coq Require Import ZArith Bool String Ascii List Lia.
From Verif Require Import Base TxtModel LexModel ParseModel ParseSpec.
Import ListNotations.
Open Scope nat_scope.
Open Scope list_scope.

(** * Token kinds *)
Lemma name_ident k : name_token k <-> is_ident k = true.
Proof. unfold name_token. destruct k; cbn; split; intros H; try discriminate; auto; destruct H; discriminate. Qed.
Lemma operator_op k : operator_token k <-> is_op k = true.
Proof.
  unfold operator_token. split.
  - cbn [In]. intros H. repeat (destruct H as [H | H]; [subst k; reflexivity|]). destruct H.
  - destruct k; intros H; try discriminate H; cbn [In]; tauto.
Qed.
Lemma sym_eqb_spec a b : sym_eqb a b = true <-> a = b.
Proof. unfold sym_eqb. destruct (sym_eq_dec a b); split; auto; discriminate. Qed.
Lemma sym_eqb_refl a : sym_eqb a a = true.
Proof. apply sym_eqb_spec. reflexivity. Qed.
Lemma sym_eqb_neq a b : a <> b -> sym_eqb a b = false.
Proof. unfold sym_eqb. destruct (sym_eq_dec a b); auto. contradiction. Qed.
Lemma text_eqb_spec a b : text_eqb a b = true <-> a = b.
Proof. unfold text_eqb. destruct (list_eq_dec ascii_dec a b); split; auto; discriminate. Qed.
Lemma text_eqb_neq a b : a <> b -> text_eqb a b = false.
Proof. unfold text_eqb. destruct (list_eq_dec ascii_dec a b); auto. contradiction. Qed.
Lemma text_eqb_refl a : text_eqb a a = true.
Proof. apply text_eqb_spec. reflexivity. Qed.

Lemma op_not_ident k : is_op k = true -> is_ident k = false.
Proof. destruct k; cbn; auto; discriminate. Qed.

(** First tokens of expressions. *)
Definition starter (k : sym) : Prop :=
  In k [Identifier; Primitive; NewTerm; NewBlock; Pound; STString; Minus; Integer; Double].
Definition starts (ts : tokens) : Prop := exists k t r, ts = (k, t) :: r /\ starter k.
(** The second token is not [:=]. *)
Definition second (ts : tokens) : Prop :=
  match ts with _ :: (k, _) :: _ => k <> Assign | _ => True end.

Lemma second_app ts ts' : starts ts -> second ts ->
  (forall k t, ts' = (k, t) :: tl ts' -> k <> Assign) -> second (ts ++ ts').
Proof.
  intros [k [t [r [-> _]]]] H H'. destruct r as [|[k2 t2] r]; cbn in *; auto.
  destruct ts' as [|[k2 t2] r]; auto. apply (H' k2 t2). reflexivity.
Qed.
Lemma starts_app ts ts' : starts ts -> starts (ts ++ ts').
Proof. intros [k [t [r [-> H]]]]. exists k, t, (r ++ ts'). split; auto. Qed.
Lemma starts_kind ts ts' : starts ts -> kind (ts ++ ts') = kind ts /\ starter (kind ts) /\ 1 <= length ts.
Proof. intros [k [t [r [-> H]]]]. cbn. repeat split; auto. lia. Qed.

(** * Literals *)
Scheme G_lit_mut := Induction for G_lit Sort Prop
with G_lits_mut := Induction for G_lits Sort Prop.
Combined Scheme G_lit_both from G_lit_mut, G_lits_mut.

Lemma lit_starts l ts : G_lit l ts -> starts ts /\ second ts /\ kind ts <> EndTerm
  /\ kind ts <> NewTerm /\ kind ts <> NewBlock /\ is_ident (kind ts) = false.
Proof.
  intros H. inversion H; subst; (split; [do 3 eexists; split; [reflexivity|]; cbn; tauto|]); cbn;
    repeat split; try discriminate; auto.
  intros ->. destruct H0 as [[H0 | H0] | [H0 | H0]]; try discriminate.
  - cbn in H0. repeat (destruct H0 as [H0 | H0]; [discriminate|]). destruct H0.
  - cbn in H0. repeat (destruct H0 as [H0 | H0]; [discriminate|]). destruct H0.
Qed.

Lemma literal_symbol_ok k t rest :
  name_token k \/ operator_token k \/ In k [Keyword; KeywordSequence; STString] ->
  literal_symbol ((k, t) :: rest) = Ok (LSym t, rest) /\ sym_eqb k NewTerm = false.
Proof.
  intros H. unfold literal_symbol, selector, binary_selector, identifier.
  destruct H as [[-> | ->] | [H | H]]; try (split; reflexivity).
  - cbn in H. repeat (destruct H as [<- | H]; [split; reflexivity|]). destruct H.
  - cbn in H. repeat (destruct H as [<- | H]; [split; reflexivity|]). destruct H.
Qed.

Lemma literal_ok :
  (forall l ts, G_lit l ts -> forall n rest, length ts <= n -> literal n (ts ++ rest) = Ok (l, rest)) /\
  (forall ls ts, G_lits ls ts -> forall n rest c, length ts < n ->
     literals n (ts ++ (EndTerm, c) :: rest) = Ok (ls, rest)).
Proof.
  apply G_lit_both; intros.
  - destruct n; [cbn in H; lia|]. reflexivity.
  - destruct n; [cbn in H; lia|]. reflexivity.
  - destruct n; [cbn in H; lia|]. reflexivity.
  - destruct n; [cbn in H; lia|]. reflexivity.
  - destruct n; [cbn in H; lia|]. reflexivity.
  - destruct n; [cbn in H; lia|].
    destruct (literal_symbol_ok k t rest o) as [H1 H2].
    cbn [literal app kind tl]. rewrite H2. exact H1.
  - destruct n; [cbn in H0; lia|]. cbn [literal app kind tl]. rewrite sym_eqb_refl.
    rewrite <- app_assoc. cbn [app]. rewrite H by (cbn in H0; rewrite app_length in H0; cbn in H0; lia).
    reflexivity.
  - destruct n; [cbn in H; lia|]. reflexivity.
  - destruct n; [lia|]. rewrite <- app_assoc. cbn [literals].
    destruct (lit_starts _ _ g) as [S1 [_ [Hk _]]].
    destruct (starts_kind ts (ts' ++ (EndTerm, c) :: rest) S1) as [K [_ L]].
    rewrite K. rewrite app_length in H1.
    rewrite H by lia. cbn [bind]. rewrite H0 by lia. cbn [bind].
    destruct (kind ts); try reflexivity. exfalso. apply Hk. reflexivity.
Qed.

(** * Declarations *)
Lemma names_ok xs ts rest : G_names xs ts -> is_ident (kind rest) = false ->
  names (ts ++ rest) = (xs, rest).
Proof.
  intros H Hr. induction H.
  - cbn. destruct rest as [|[k t] r]; [reflexivity|]. cbn in Hr |- *. rewrite Hr. reflexivity.
  - cbn. apply name_ident in H. rewrite H, IHG_names. reflexivity.
Qed.
Lemma colons_ok xs ts rest : G_colons xs ts -> kind rest <> Colon ->
  block_arguments (ts ++ rest) = Ok (xs, rest).
Proof.
  intros H Hr. induction H.
  - cbn. destruct rest as [|[k t] r]; [reflexivity|]. cbn in Hr. destruct k; try reflexivity. contradiction.
  - cbn. apply name_ident in H. rewrite H, IHG_colons. reflexivity.
Qed.
Lemma params_ok ps ts o rest : G_params ps ts -> kind rest <> Colon ->
  nested_block_signature ((NewBlock, o) :: ts ++ rest) = Ok (ps, rest).
Proof.
  intros H Hr. unfold nested_block_signature, expect. cbn [kind tl]. rewrite sym_eqb_refl. cbn [bind].
  inversion H; subst.
  - cbn [app]. destruct (kind rest); try reflexivity. contradiction.
  - rewrite <- app_assoc. cbn [app].
    destruct H1; [contradiction|]. cbn [app kind].
    change ((Colon, c) :: (k, x) :: ts ++ (Or, b) :: rest) with (((Colon, c) :: (k, x) :: ts) ++ (Or, b) :: rest).
    rewrite (colons_ok (x :: xs) ((Colon, c) :: (k, x) :: ts)); [|constructor; auto | discriminate].
    cbn [bind kind tl]. rewrite sym_eqb_refl. reflexivity.
Qed.
Lemma locals_ok ls ts rest : G_locals ls ts -> (ts = [] -> kind rest <> Or) ->
  block_locals (ts ++ rest) = Ok (ls, rest).
Proof.
  intros H Hr. unfold block_locals. inversion H; subst.
  - cbn [app]. specialize (Hr eq_refl). destruct (kind rest); try reflexivity. contradiction.
  - cbn [app kind tl]. rewrite <- app_assoc. cbn [app].
    rewrite (names_ok _ _ _ H0) by reflexivity. unfold expect. cbn [kind tl]. rewrite sym_eqb_refl. reflexivity.
Qed.
Lemma locals_kind ls ts rest k : G_locals ls ts -> kind rest <> k -> k <> Or -> kind (ts ++ rest) <> k.
Proof. intros H Hr Hk. inversion H; subst; cbn; auto. Qed.

(** * Shape of the grammar *)
Section Shape.
Variable operand_ok : bool -> text -> bool -> tokens -> Prop.
Variable args_ok : bool -> list expr -> Prop.
Variable target_ok : text -> Prop.
Notation G_primary := (G_primary operand_ok args_ok target_ok).
Notation G_unary := (G_unary operand_ok args_ok target_ok).
Notation G_binary := (G_binary operand_ok args_ok target_ok).
Notation G_args := (G_args operand_ok args_ok target_ok).
Notation G_eval := (G_eval operand_ok args_ok target_ok).
Notation G_expr := (G_expr operand_ok args_ok target_ok).
Notation G_body := (G_body operand_ok args_ok target_ok).
End Shape.

Scheme Gp_mut := Induction for G_primary Sort Prop
with Gu_mut := Induction for G_unary Sort Prop
with Gb_mut := Induction for G_binary Sort Prop
with Ga_mut := Induction for G_args Sort Prop
with Ge_mut := Induction for G_eval Sort Prop
with Gx_mut := Induction for G_expr Sort Prop
with Gs_mut := Induction for G_body Sort Prop.
Combined Scheme G_all from Gp_mut, Gu_mut, Gb_mut, Ga_mut, Ge_mut, Gx_mut, Gs_mut.

Lemma op_not_assign k : operator_token k -> k <> Assign.
Proof. intros H ->. apply operator_op in H. discriminate. Qed.
Lemma name_not_assign k : name_token k -> k <> Assign.
Proof. intros H ->. apply name_ident in H. discriminate. Qed.
Lemma name_starter k : name_token k -> starter k.
Proof. intros [-> | ->]; cbn; auto. Qed.

Lemma starts_cons k t r : starter k -> starts ((k, t) :: r).
Proof. intros H. exists k, t, r. auto. Qed.
Lemma second_cons2 a k t r : k <> Assign -> second (a :: (k, t) :: r).
Proof. auto. Qed.
Lemma starter_not_assign k : starter k -> k <> Assign.
Proof. intros H ->. cbn in H. repeat (destruct H as [H | H]; [discriminate|]). destruct H. Qed.

Lemma targets_starts tok vs vts : G_targets tok vs vts -> starts vts /\ 2 <= length vts
  /\ exists a b c r, vts = a :: (Assign, b) :: c /\ r = c.
Proof.
  intros H. destruct H; (split; [apply starts_cons, name_starter; auto|]); (split; [cbn; lia|]);
    do 4 eexists; split; reflexivity.
Qed.

Section Shapes.
Variable oo : bool -> text -> bool -> tokens -> Prop.
Variable ao : bool -> list expr -> Prop.
Variable tok : text -> Prop.

Lemma shape :
  (forall e s ts, G_primary oo ao tok e s ts -> starts ts /\ second ts) /\
  (forall e s ts, G_unary oo ao tok e s ts -> starts ts /\ second ts) /\
  (forall e s ts, G_binary oo ao tok e s ts -> starts ts /\ second ts) /\
  (forall sel args ts, G_args oo ao tok sel args ts -> args <> [] -> kind ts = Keyword) /\
  (forall e ts, G_eval oo ao tok e ts -> starts ts /\ second ts) /\
  (forall e ts, G_expr oo ao tok e ts -> starts ts) /\
  (forall es ret ts, G_body oo ao tok es ret ts -> ts = [] /\ es = [] /\ ret = None \/ starts ts \/ kind ts = Exit).
Proof.
  apply (G_all oo ao tok); intros; cbn [kind]; auto.
  - split; [apply starts_cons, name_starter; auto | exact I].
  - split; [apply starts_cons, name_starter; auto | exact I].
  - split; [apply starts_cons; cbn; auto 10|]. destruct H as [k [t [r [-> Hs]]]].
    cbn. apply starter_not_assign, Hs.
  - split; [apply starts_cons; cbn; auto 10|].
    destruct g; cbn [app].
    + destruct g0; cbn [app second].
      * destruct H as [[-> _] | [[k [t [r [-> Hs]]]] | Hs]]; cbn.
        -- discriminate.
        -- apply starter_not_assign, Hs.
        -- destruct ts as [|[k t] r]; cbn in *; [discriminate|]. rewrite Hs. discriminate.
      * discriminate.
    + destruct H1; [contradiction|]. cbn. discriminate.
  - destruct (lit_starts _ _ g) as [A [B _]]. auto.
  - destruct H as [A B]. split; [apply starts_app; auto|]. apply second_app; auto.
    intros k' t' E'. cbn in E'. injection E' as <- <-. apply name_not_assign; auto.
  - destruct H as [A B]. split; [apply starts_app; auto|]. apply second_app; auto.
    intros k' t' E'. cbn in E'. injection E' as <- <-. apply op_not_assign; auto.
  - contradiction.
  - destruct H as [A B]. split; [apply starts_app; auto|]. apply second_app; auto.
    intros k' t' E'. specialize (H0 n). destruct ts' as [|[k2 t2] r2]; [discriminate|].
    cbn in H0. injection E' as <- <-. subst. discriminate.
  - apply H.
  - apply starts_app. destruct (targets_starts _ _ _ g) as [A _]. exact A.
  - right. left. apply starts_app, H.
Qed.
End Shapes.

(** * The AST parser *)
Definition stop (rest : tokens) : Prop :=
  is_ident (kind rest) = false /\ is_op (kind rest) = false /\ kind rest <> Keyword /\ kind rest <> Assign.
Definition quiet (f : bool) (e : expr) : Prop := f = true -> no_send e = true.

Section AstProof.
Notation oo := not_super_operand.
Notation ao := quiet_first_arg.
Notation tok := assignable.

Definition Ast_primary (e : expr) (s : bool) (ts : tokens) : Prop :=
  forall n rest f, length ts <= n -> quiet f e ->
  exists f', a_primary (a_expression n) n (ts ++ rest, f) = Ok (e, (rest, f')) /\ (f = false -> f' = s).
Definition Ast_unary (e : expr) (s : bool) (ts : tokens) : Prop :=
  forall n rest f, length ts <= n -> quiet f e ->
  exists f', a_binary_operand (a_expression n) n (ts ++ rest, f) = Ok (a_unary_loop e rest f')
             /\ (f = false -> f' = s).
Definition Ast_binary (e : expr) (s : bool) (ts : tokens) : Prop :=
  forall n rest f, length ts <= n -> quiet f e -> is_ident (kind rest) = false ->
  exists f' m, (r <- a_binary_operand (a_expression n) n (ts ++ rest, f) ;;
                let '(e, st) := r in a_binary_loop (a_expression n) n n e st)
               = a_binary_loop (a_expression n) n m e (rest, f')
             /\ (f = false -> f' = s) /\ n < m + length ts.
Definition Ast_args (sel : text) (args : list expr) (ts : tokens) : Prop :=
  forall n k rest f, length ts <= n -> length ts < k ->
  is_ident (kind rest) = false -> is_op (kind rest) = false -> kind rest <> Keyword ->
  (f = true -> match args with a :: _ => no_send a = true | [] => True end) ->
  exists f', a_keyword_loop (a_expression n) n k (ts ++ rest, f) = Ok (sel, args, (rest, f')).
Definition Ast_eval (e : expr) (ts : tokens) : Prop :=
  forall n rest f, length ts <= n -> quiet f e -> stop rest ->
  a_evaluation (a_expression n) n (ts ++ rest, f) = Ok (e, (rest, false)).
Definition Ast_expr (e : expr) (ts : tokens) : Prop :=
  forall n rest f, length ts < n -> quiet f e -> stop rest ->
  a_expression n (ts ++ rest, f) = Ok (e, (rest, false)).
Definition Ast_body (es : list expr) (ret : option expr) (ts : tokens) : Prop :=
  forall n k rest f, length ts < n -> length ts < k ->
  quiet f (Blk [] [] es ret) -> kind rest = EndBlock \/ kind rest = EndTerm ->
  exists f', a_block_body (a_expression n) k (ts ++ rest, f) = Ok (es, ret, (rest, f'))
             /\ (f = false -> f' = false).

Lemma stop_end rest : kind rest = EndBlock \/ kind rest = EndTerm -> stop rest.
Proof. intros [H | H]; unfold stop; rewrite H; repeat split; auto; discriminate. Qed.
Lemma stop_period p rest : stop ((Period, p) :: rest).
Proof. repeat split; discriminate. Qed.
Lemma stop_endterm p rest : stop ((EndTerm, p) :: rest).
Proof. repeat split; discriminate. Qed.

(** _evaluation is: a primary with unary messages, operators, perhaps a keyword message. *)
Lemma evaluation_alt E n st : 1 <= n ->
  a_evaluation E n st =
  (r <- (r <- a_binary_operand E n st ;; let '(e, st) := r in a_binary_loop E n n e st) ;;
   let '(e, st) := r in
   r <- (match kind (fst st) with Keyword => a_keyword_message E n e st | _ => Ok (e, st) end) ;;
   let '(e, (ts, _)) := r in Ok (e, (ts, false))).
Proof.
  intros Hn. unfold a_evaluation, a_binary_operand.
  destruct (a_primary E n st) as [[e [ts f]] | x]; [|reflexivity]. cbn [bind fst].
  destruct (starts_message (kind ts)) eqn:S1.
  - unfold a_messages. destruct (a_unary_loop e ts f) as [e1 [ts1 f1]].
    destruct (a_binary_loop E n n e1 (ts1, f1)) as [[e2 [ts2 f2]] | x]; [|reflexivity].
    cbn [bind fst]. destruct (kind ts2); reflexivity.
  - unfold starts_message in S1. apply orb_false_iff in S1. destruct S1 as [S1 S3].
    apply orb_false_iff in S1. destruct S1 as [S1 S2].
    assert (U : a_unary_loop e ts f = (e, (ts, f))).
    { destruct ts as [|[k t] r]; [reflexivity|]. cbn in S1 |- *. rewrite S1. reflexivity. }
    rewrite U. destruct n as [|m]; [lia|]. cbn [a_binary_loop fst]. rewrite S3. cbn [bind fst].
    destruct (kind ts); try reflexivity. discriminate S2.
Qed.

Lemma unary_loop_stop e rest f : is_ident (kind rest) = false -> a_unary_loop e rest f = (e, (rest, f)).
Proof. destruct rest as [|[k t] r]; [reflexivity|]. cbn. intros ->. reflexivity. Qed.

Lemma args_first sel args ts : G_args oo ao tok sel args ts -> args <> [] -> kind ts = Keyword.
Proof. destruct (shape oo ao tok) as [_ [_ [_ [H _]]]]. apply H. Qed.
Lemma args_empty sel args ts : G_args oo ao tok sel args ts -> args = [] -> ts = [] /\ sel = [].
Proof. intros H ->. inversion H. auto. Qed.

Lemma quiet_false e : quiet false e.
Proof. intros H. discriminate. Qed.

Lemma kind_app_cons ts rest : ts <> [] -> kind (ts ++ rest) = kind ts.
Proof. destruct ts as [|[k t] r]; [contradiction | reflexivity]. Qed.

Theorem ast_follows :
  (forall e s ts, G_primary oo ao tok e s ts -> Ast_primary e s ts) /\
  (forall e s ts, G_unary oo ao tok e s ts -> Ast_unary e s ts) /\
  (forall e s ts, G_binary oo ao tok e s ts -> Ast_binary e s ts) /\
  (forall sel args ts, G_args oo ao tok sel args ts -> Ast_args sel args ts) /\
  (forall e ts, G_eval oo ao tok e ts -> Ast_eval e ts) /\
  (forall e ts, G_expr oo ao tok e ts -> Ast_expr e ts) /\
  (forall es ret ts, G_body oo ao tok es ret ts -> Ast_body es ret ts).
Proof.
  destruct (shape oo ao tok) as [Shp [Shu [Shb [Sha [She [Shx Shs]]]]]].
  apply (G_all oo ao tok).
  - (* a name *)
    intros k nm Hk Hn n rest f Hl Hq. exists f. unfold a_primary. cbn [app kind ttext tl].
    apply name_ident in Hk. rewrite Hk, (text_eqb_neq _ _ Hn). split; auto.
  - intros k Hk n rest f Hl Hq. exists true. unfold a_primary. cbn [app kind ttext tl].
    apply name_ident in Hk. rewrite Hk, text_eqb_refl. split; auto.
  - (* parentheses *)
    intros o e ts c Hx IH n rest f Hl Hq. exists false. split; auto.
    unfold a_primary. cbn [app kind ttext tl is_ident].
    cbn in Hl. rewrite app_length in Hl. cbn in Hl.
    rewrite <- app_assoc. cbn [app]. rewrite (IH n); [| lia | exact Hq | apply stop_endterm].
    cbn [bind]. unfold expect. cbn [kind tl]. rewrite sym_eqb_refl. reflexivity.
  - (* block *)
    intros o ps pts ls lts es ret ts c Hp Hloc Hb IH n rest f Hl Hq.
    cbn [length] in Hl. rewrite !app_length in Hl. cbn [length] in Hl.
    destruct (IH n n ((EndBlock, c) :: rest) f) as [f' [Hbody Hf']]; [lia | lia | exact Hq | left; reflexivity |].
    exists f'. split; [|exact Hf'].
    unfold a_primary. cbn [app kind is_ident]. unfold a_nested_block.
    rewrite <- !app_assoc. cbn [app].
    assert (Hno : forall k, k <> EndBlock -> k <> Exit -> ~ starter k -> kind (ts ++ (EndBlock, c) :: rest) <> k).
    { intros k K1 K2 K3. destruct (Shs _ _ _ Hb) as [[-> _] | [S1 | S1]].
      - cbn. congruence.
      - destruct (starts_kind ts ((EndBlock, c) :: rest) S1) as [-> [S2 _]]. intros <-. auto.
      - destruct ts as [|[k' t'] r]; cbn in *; congruence. }
    rewrite (params_ok _ _ _ _ Hp).
    2:{ apply locals_kind with (ls := ls); auto; [|discriminate]. apply Hno; try discriminate.
        cbn. intuition discriminate. }
    cbn [bind]. rewrite (locals_ok _ _ _ Hloc).
    2:{ intros _. apply Hno; try discriminate. cbn. intuition discriminate. }
    cbn [bind]. rewrite Hbody. cbn [bind]. unfold expect. cbn [kind tl]. rewrite sym_eqb_refl. reflexivity.
  - (* literal *)
    intros l ts Hlit n rest f Hl Hq. exists f. split; auto.
    destruct (lit_starts _ _ Hlit) as [S1 [_ [K1 [K2 [K3 K4]]]]].
    destruct (starts_kind ts rest S1) as [K _].
    unfold a_primary. rewrite K, K4.
    rewrite (proj1 literal_ok _ _ Hlit) by lia.
    destruct (kind ts); try reflexivity; congruence.
  - (* unary from primary *)
    intros e s ts Hp IH n rest f Hl Hq. destruct (IH n rest f Hl Hq) as [f' [H1 H2]].
    exists f'. split; auto. unfold a_binary_operand. rewrite H1. reflexivity.
  - (* unary send *)
    intros r s ts k sel Hu IH Hk n rest f Hl Hq.
    rewrite app_length in Hl. cbn in Hl.
    assert (f = false) by (destruct f; auto; specialize (Hq eq_refl); discriminate). subst f.
    destruct (IH n ((k, sel) :: rest) false) as [f' [H1 H2]]; [lia | apply quiet_false |].
    rewrite (H2 eq_refl) in H1. exists false. split; auto.
    rewrite <- app_assoc. cbn [app]. rewrite H1. cbn [a_unary_loop].
    apply name_ident in Hk. rewrite Hk. reflexivity.
  - (* binary from unary *)
    intros e s ts Hu IH n rest f Hl Hq Hr. destruct (IH n rest f Hl Hq) as [f' [H1 H2]].
    exists f', n. split; [|split; auto].
    + rewrite H1. cbn [bind]. rewrite unary_loop_stop by auto. reflexivity.
    + destruct (Shu _ _ _ Hu) as [S1 _]. destruct (starts_kind ts [] S1) as [_ [_ L]]. lia.
  - (* binary send *)
    intros l s ts k op r s' ts' Hb IHl Hk Hu IHr Hok n rest f Hl Hq Hr.
    rewrite app_length in Hl. cbn in Hl.
    assert (f = false) by (destruct f; auto; specialize (Hq eq_refl); discriminate). subst f.
    apply operator_op in Hk.
    destruct (IHl n ((k, op) :: ts' ++ rest) false) as [f1 [m [H1 [H2 H3]]]];
      [lia | apply quiet_false | cbn; apply op_not_ident; auto |].
    rewrite (H2 eq_refl) in H1. clear H2.
    destruct (IHr n rest false) as [f2 [H4 H5]]; [lia | apply quiet_false |].
    rewrite (H5 eq_refl) in H4. clear H5. hnf in Hok. subst s'.
    destruct m as [|m]; [lia|].
    exists false, m. split; [|split; auto].
    + rewrite <- app_assoc. cbn [app]. rewrite H1. cbn [a_binary_loop fst kind]. rewrite Hk.
      unfold a_binary_message, binary_selector. cbn [kind ttext tl]. rewrite Hk. cbn [bind].
      rewrite H4. cbn [bind]. rewrite unary_loop_stop by auto. reflexivity.
    + rewrite app_length. cbn. lia.
  - (* no arguments *)
    intros n k rest f Hl Hk R1 R2 R3 Hq. destruct k; [cbn in Hk; lia|].
    exists f. cbn [a_keyword_loop app]. destruct (kind rest); try reflexivity. contradiction.
  - (* arguments *)
    intros key e s ts sel args ts' Hb IHb Ha IHa n k rest f Hl Hk R1 R2 R3 Hq.
    cbn [length] in Hl, Hk. rewrite app_length in Hl, Hk.
    destruct (Shb _ _ _ Hb) as [S1 _]. destruct (starts_kind ts [] S1) as [_ [_ L]].
    destruct k; [lia|].
    assert (Hkd : is_ident (kind (ts' ++ rest)) = false /\ is_op (kind (ts' ++ rest)) = false).
    { destruct args.
      - destruct (args_empty _ _ _ Ha eq_refl) as [-> ->]. split; auto.
      - rewrite kind_app_cons; [rewrite (args_first _ _ _ Ha) by discriminate; split; reflexivity|].
        intros ->. pose proof (args_first _ _ _ Ha). cbn in H. discriminate H. discriminate. }
    destruct Hkd as [Hkd1 Hkd2].
    destruct (IHb n (ts' ++ rest) f) as [f1 [m [H1 [H2 H3]]]]; [lia | exact Hq | auto |].
    destruct m as [|m]; [lia|].
    destruct (IHa n k rest false) as [f2 H4]; [lia | lia | auto | auto | auto | discriminate |].
    exists f2. cbn [a_keyword_loop app kind]. unfold keyword, expect. cbn [kind]. rewrite sym_eqb_refl.
    cbn [bind tl ttext]. unfold a_formula. rewrite <- app_assoc.
    cbn [a_binary_loop fst] in H1. rewrite Hkd2 in H1.
    destruct (a_binary_operand (a_expression n) n (ts ++ ts' ++ rest, f)) as [[e1 st1] | x]; [|discriminate H1].
    cbn [bind] in H1 |- *. rewrite H1. cbn [bind]. rewrite H4. reflexivity.
  - (* evaluation without keyword message *)
    intros e s ts Hb IH n rest f Hl Hq [R1 [R2 [R3 R4]]].
    destruct (Shb _ _ _ Hb) as [S1 _]. destruct (starts_kind ts [] S1) as [_ [_ L]].
    destruct (IH n rest f Hl Hq R1) as [f1 [m [H1 [H2 H3]]]]. destruct m as [|m]; [lia|].
    rewrite evaluation_alt by lia. rewrite H1. cbn [a_binary_loop fst]. rewrite R2. cbn [bind fst].
    destruct (kind rest); try reflexivity. contradiction.
  - (* evaluation with a keyword message *)
    intros r s ts sel args ts' Hb IHb Ha IHa Hne Hok n rest f Hl Hq [R1 [R2 [R3 R4]]].
    rewrite app_length in Hl.
    assert (f = false) by (destruct f; auto; specialize (Hq eq_refl); discriminate). subst f.
    destruct (Shb _ _ _ Hb) as [S1 _]. destruct (starts_kind ts [] S1) as [_ [_ L]].
    pose proof (args_first _ _ _ Ha Hne) as Kw.
    assert (Kw' : kind (ts' ++ rest) = Keyword).
    { rewrite kind_app_cons; auto. intros ->. discriminate Kw. }
    destruct (IHb n (ts' ++ rest) false) as [f1 [m [H1 [H2 H3]]]];
      [lia | apply quiet_false | rewrite Kw'; reflexivity |].
    rewrite (H2 eq_refl) in H1. destruct m as [|m]; [lia|].
    rewrite <- app_assoc. rewrite evaluation_alt by lia. rewrite H1.
    cbn [a_binary_loop fst]. rewrite Kw'. cbn [is_op is_single_op bind fst]. rewrite Kw'.
    unfold a_keyword_message. cbn [snd].
    destruct (IHa n n rest s) as [f2 H4]; [lia | lia | auto | auto | auto | exact Hok |].
    rewrite H4. reflexivity.
  - (* expression: evaluation *)
    intros e ts He IH n rest f Hl Hq Hr. destruct n as [|n]; [lia|].
    cbn [a_expression]. unfold a_expression_. cbn [fst].
    destruct (She _ _ He) as [[k [t [r [-> Hk]]]] S2].
    assert (NA : sym_eqb (kind (tl (((k, t) :: r) ++ rest))) Assign = false).
    { apply sym_eqb_neq. cbn. destruct r as [|[k2 t2] r]; cbn in *; [apply Hr | exact S2]. }
    rewrite NA. apply IH; auto. lia.
  - (* assignment *)
    intros vs vts e ts Hv He IH n rest f Hl Hq Hr. destruct n as [|n]; [lia|].
    rewrite app_length in Hl.
    cbn [a_expression]. unfold a_expression_. cbn [fst].
    destruct (targets_starts _ _ _ Hv) as [_ [L2 [a [b [c [_ [E _]]]]]]].
    assert (IS : sym_eqb (kind (tl ((vts ++ ts) ++ rest))) Assign = true).
    { rewrite E. reflexivity. }
    rewrite IS. clear IS E.
    assert (M : forall k, length vts <= k ->
       a_assignments (a_expression n) n k ((vts ++ ts) ++ rest, f) = Ok (vs, e, (rest, false))).
    { assert (Lts : length ts <= n) by lia. clear Hl L2 a b c.
      destruct (She _ _ He) as [[k0 [t0 [r0 [E0 Hk0]]]] S2].
      induction Hv as [k v a Hk Ht | k v a vs ts1 Hk Ht Hv IHv]; intros q Hq'; cbn [length] in Hq'.
      - destruct q as [|q]; [lia|]. cbn [a_assignments app]. unfold identifier. cbn [kind ttext tl].
        apply name_ident in Hk. rewrite Hk. cbn [bind]. unfold expect. cbn [kind tl].
        rewrite sym_eqb_refl. cbn [bind].
        assert (NA : sym_eqb (kind (tl (ts ++ rest))) Assign = false).
        { apply sym_eqb_neq. subst ts. cbn. destruct r0 as [|[k2 t2] r]; cbn in *; [apply Hr | exact S2]. }
        rewrite NA. rewrite IH; auto. cbn [bind]. destruct Ht as [Ht1 Ht2].
        rewrite (text_eqb_neq _ _ Ht1), (text_eqb_neq _ _ Ht2). reflexivity.
      - destruct q as [|q]; [lia|]. cbn [a_assignments app]. unfold identifier. cbn [kind ttext tl].
        apply name_ident in Hk. rewrite Hk. cbn [bind]. unfold expect. cbn [kind tl].
        rewrite sym_eqb_refl. cbn [bind].
        destruct (targets_starts _ _ _ Hv) as [_ [L2 [a' [b [c [_ [E _]]]]]]].
        assert (IS : sym_eqb (kind (tl ((ts1 ++ ts) ++ rest))) Assign = true).
        { rewrite E. reflexivity. }
        rewrite IS. rewrite IHv; [|exact Hq | lia]. cbn [bind]. destruct Ht as [Ht1 Ht2].
        rewrite (text_eqb_neq _ _ Ht1), (text_eqb_neq _ _ Ht2). reflexivity. }
    destruct (She _ _ He) as [S3 _]. destruct (starts_kind ts [] S3) as [_ [_ L3]].
    rewrite M by lia. reflexivity.
  - (* empty body *)
    intros n k rest f Hl Hk Hq Hr. destruct k; [cbn in Hk; lia|]. exists f. split; auto.
    cbn [a_block_body app]. destruct Hr as [-> | ->]; reflexivity.
  - (* last statement *)
    intros e ts Hx IH n k rest f Hl Hk Hq Hr.
    pose proof (Shx _ _ Hx) as S1. destruct (starts_kind ts rest S1) as [K [Ks L]].
    destruct k as [|[|k]]; [lia | lia|]. exists false. split; auto.
    assert (B : a_block_body (a_expression n) (S (S k)) (ts ++ rest, f) =
      (r <- a_expression n (ts ++ rest, f) ;; let '(e, (ts, f)) := r in
       r <- a_block_body (a_expression n) (S k) (snd (accept Period ts), f) ;;
       let '(es, ret, st) := r in Ok (e :: es, ret, st))).
    { cbn [a_block_body]. rewrite K. clear - Ks. destruct (kind ts); try reflexivity;
        cbn in Ks; intuition discriminate. }
    rewrite B. rewrite IH; [|lia | | apply stop_end; auto].
    2:{ intros Hf. specialize (Hq Hf). cbn in Hq. rewrite !andb_true_r in Hq. exact Hq. }
    cbn [bind]. unfold accept. rewrite sym_eqb_neq by (destruct Hr as [-> | ->]; discriminate).
    cbn [snd a_block_body]. destruct Hr as [-> | ->]; reflexivity.
  - (* more statements *)
    intros e ts p es ret ts' Hx IHx Hb IHb n k rest f Hl Hk Hq Hr.
    rewrite app_length in Hl, Hk. cbn in Hl, Hk.
    pose proof (Shx _ _ Hx) as S1.
    destruct (starts_kind ts ((Period, p) :: ts' ++ rest) S1) as [K [Ks L]].
    destruct k as [|k]; [lia|].
    rewrite <- app_assoc. cbn [app].
    assert (B : a_block_body (a_expression n) (S k) (ts ++ (Period, p) :: ts' ++ rest, f) =
      (r <- a_expression n (ts ++ (Period, p) :: ts' ++ rest, f) ;; let '(e, (ts, f)) := r in
       r <- a_block_body (a_expression n) k (snd (accept Period ts), f) ;;
       let '(es, ret, st) := r in Ok (e :: es, ret, st))).
    { cbn [a_block_body]. rewrite K. clear - Ks. destruct (kind ts); try reflexivity;
        cbn in Ks; intuition discriminate. }
    destruct (IHb n k rest false) as [f' [H1 H2]]; [lia | lia | apply quiet_false | auto |].
    exists f'. split; [|intros _; apply H2; reflexivity].
    rewrite B. rewrite IHx; [|lia | | apply stop_period].
    2:{ intros Hf. specialize (Hq Hf). cbn in Hq. rewrite !andb_true_iff in Hq. tauto. }
    cbn [bind]. unfold accept. cbn [kind]. rewrite sym_eqb_refl. cbn [snd tl].
    rewrite H1. reflexivity.
  - (* return *)
    intros x e ts dot Hx IH Hd n k rest f Hl Hk Hq Hr.
    destruct k as [|k]; [cbn in Hk; lia|]. exists false. split; auto.
    cbn [length] in Hl, Hk. rewrite app_length in Hl, Hk.
    cbn [a_block_body app kind tl]. rewrite <- app_assoc.
    rewrite IH; [|lia | exact Hq |].
    + cbn [bind]. destruct Hd as [-> | [p ->]]; cbn [app].
      * unfold accept. rewrite sym_eqb_neq by (destruct Hr as [-> | ->]; discriminate). reflexivity.
      * unfold accept. cbn [kind]. rewrite sym_eqb_refl. reflexivity.
    + destruct Hd as [-> | [p ->]]; cbn [app]; [apply stop_end; auto | apply stop_period].
Qed.
End AstProof.

(** * The bytecode parser *)
Fixpoint push_elems (i : nat) (ls : list lit) : list ev :=
  match ls with
  | [] => []
  | l :: ls' => PushIndex i :: push_lit l ++ SendMsg false t_at_put :: push_elems (S i) ls'
  end.
Lemma push_arr ls : push_lit (LArr ls) =
  PushArray :: PushIndex (length ls) :: SendMsg false t_new :: push_elems 1 ls.
Proof. reflexivity. Qed.

Lemma b_literal_ok :
  (forall l ts, G_lit l ts -> forall n rest, length ts <= n -> b_literal n (ts ++ rest) = Ok (push_lit l, rest)) /\
  (forall ls ts, G_lits ls ts -> forall n i rest c, length ts < n ->
     b_literals n i (ts ++ (EndTerm, c) :: rest) = Ok (push_elems i ls, i + length ls, rest)).
Proof.
  apply G_lit_both; intros.
  - destruct n; [cbn in H; lia|]. reflexivity.
  - destruct n; [cbn in H; lia|]. reflexivity.
  - destruct n; [cbn in H; lia|]. reflexivity.
  - destruct n; [cbn in H; lia|]. reflexivity.
  - destruct n; [cbn in H; lia|]. reflexivity.
  - destruct n; [cbn in H; lia|].
    destruct (literal_symbol_ok k t rest o) as [H1 H2].
    cbn [b_literal app kind tl]. rewrite H2, H1. reflexivity.
  - destruct n; [cbn in H0; lia|]. cbn [b_literal app kind tl]. rewrite sym_eqb_refl.
    rewrite <- app_assoc. cbn [app]. rewrite H by (cbn in H0; rewrite app_length in H0; cbn in H0; lia).
    cbn [bind]. rewrite push_arr. replace (1 + length ls - 1) with (length ls) by lia. reflexivity.
  - destruct n; [cbn in H; lia|]. cbn [length]. rewrite Nat.add_0_r. reflexivity.
  - destruct n; [lia|]. rewrite <- app_assoc. cbn [b_literals].
    destruct (lit_starts _ _ g) as [S1 [_ [Hk _]]].
    destruct (starts_kind ts (ts' ++ (EndTerm, c) :: rest) S1) as [K [_ L]].
    rewrite K. rewrite app_length in H1.
    rewrite H by lia. cbn [bind]. rewrite H0 by lia. cbn [bind].
    cbn [length push_elems]. rewrite Nat.add_succ_r. cbn [Nat.add].
    destruct (kind ts); try reflexivity. exfalso. apply Hk. reflexivity.
Qed.

Lemma app_nonempty {A} (a b : list A) : a <> [] -> a ++ b <> [].
Proof. destruct a; [contradiction | discriminate]. Qed.
Lemma app_nonempty_r {A} (a b : list A) : b <> [] -> a ++ b <> [].
Proof. destruct a; [auto | discriminate]. Qed.
Lemma push_lit_nonempty l : push_lit l <> [].
Proof. destruct l; discriminate. Qed.
Lemma postfix_nonempty e c : postfix e c -> c <> [].
Proof.
  intros H; induction H; try discriminate.
  - apply push_lit_nonempty.
  - apply app_nonempty; auto.
  - apply app_nonempty; auto.
  - apply app_nonempty; auto.
  - apply app_nonempty; auto.
Qed.

Section BcProof.
Notation oo := whole_one.
Notation ao := any_args.
Notation tok := any_target.

Lemma single_int_unary r s d : G_unary oo ao tok r s [(Integer, d)] -> r = Lit (LInt false d).
Proof.
  intros H. inversion H; subst.
  - inversion H0; subst;
      try (match goal with X : name_token Integer |- _ => apply name_ident in X; discriminate X end).
    match goal with X : G_lit _ _ |- _ => inversion X; subst end. reflexivity.
  - apply app_eq_unit in H0. destruct H0 as [[-> X] | [-> X]]; [|discriminate X].
    injection X as -> ->. apply name_ident in H4. discriminate.
Qed.

Definition Bc_primary (e : expr) (s : bool) (ts : tokens) : Prop :=
  forall n rest, length ts <= n ->
  exists c, b_primary (b_expression n) n (ts ++ rest, false) = Ok (c, (rest, s)) /\ postfix e c.
Definition Bc_unary (e : expr) (s : bool) (ts : tokens) : Prop :=
  forall n rest, length ts <= n ->
  exists c, b_binary_operand (b_expression n) n (ts ++ rest, false)
            = (let '(c', st) := b_unary_loop rest s in Ok (c ++ c', st)) /\ postfix e c.
Definition Bc_binary (e : expr) (s : bool) (ts : tokens) : Prop :=
  forall n k rest, length ts <= n -> n <= k -> is_ident (kind rest) = false ->
  exists c m, (r <- b_binary_operand (b_expression n) n (ts ++ rest, false) ;;
               let '(c, st) := r in
               r <- b_binary_loop (b_expression n) n k st ;;
               let '(c', st) := r in Ok (c ++ c', st))
              = (r <- b_binary_loop (b_expression n) n m (rest, s) ;;
                 let '(c', st) := r in Ok (c ++ c', st))
             /\ postfix e c /\ k < m + length ts.
Definition Bc_args (sel : text) (args : list expr) (ts : tokens) : Prop :=
  forall n k rest, length ts <= n -> length ts < k ->
  is_ident (kind rest) = false -> is_op (kind rest) = false -> kind rest <> Keyword ->
  exists c, b_keyword_loop (b_expression n) n k (ts ++ rest, false) = Ok (sel, c, (rest, false))
            /\ postfixes args c.
Definition Bc_eval (e : expr) (ts : tokens) : Prop :=
  forall n rest, length ts <= n -> stop rest ->
  exists c, b_evaluation (b_expression n) n (ts ++ rest, false) = Ok (c, (rest, false)) /\ postfix e c.
Definition Bc_expr (e : expr) (ts : tokens) : Prop :=
  forall n rest, length ts < n -> stop rest ->
  exists c, b_expression n (ts ++ rest, false) = Ok (c, (rest, false)) /\ postfix e c.
(** what nested_block makes of the body's code *)
Definition finish (code : list ev) (fin : bool) : list ev :=
  if fin then code else match code with [] => [PushNil] | _ => code end ++ [RetLocal].
Definition Bc_body (es : list expr) (ret : option expr) (ts : tokens) : Prop :=
  forall n k rest code seen, length ts < n -> length ts < k -> kind rest = EndBlock ->
  (code = [] /\ seen = false \/ exists c0, c0 <> [] /\ code = c0 ++ [PopTop] /\ seen = true) ->
  exists code' fin, b_block_body (b_expression n) k true seen code (ts ++ rest, false)
                    = Ok (code', fin, (rest, false)) /\
  (es = [] /\ ret = None /\
     (if seen then forall c0, code = c0 ++ [PopTop] -> finish code' fin = c0 ++ [RetLocal]
      else finish code' fin = [PushNil; RetLocal])
   \/ (es <> [] \/ ret <> None) /\ exists cs, block_code es ret cs /\ finish code' fin = code ++ cs).

Lemma b_unary_loop_stop rest f : is_ident (kind rest) = false -> b_unary_loop rest f = ([], (rest, f)).
Proof. destruct rest as [|[k t] r]; [reflexivity|]. cbn. intros ->. reflexivity. Qed.

Lemma b_formula_alt E n st : 1 <= n ->
  b_formula E n st =
  (r <- (r <- b_binary_operand E n st ;; let '(c, st) := r in
         r <- b_binary_loop E n (S n) st ;; let '(c', st) := r in Ok (c ++ c', st)) ;;
   let '(c, (ts, _)) := r in Ok (c, (ts, false))).
Proof.
  intros Hn. unfold b_formula. destruct (b_binary_operand E n st) as [[c [ts f]] | x]; [|reflexivity].
  cbn [bind]. replace (b_binary_loop E n (S n) (ts, f)) with
    (if is_op (kind ts) then
        r <- b_binary_message E n (ts, f) ;; let '(c, st) := r in
        r <- b_binary_loop E n n st ;; let '(c', st) := r in Ok (c ++ c', st)
      else Ok ([], (ts, f))) by reflexivity.
  cbn [fst]. destruct (is_op (kind ts)) eqn:O.
  - destruct (b_binary_message E n (ts, f)) as [[c1 st1] | x]; [|reflexivity]. cbn [bind].
    destruct (b_binary_loop E n n st1) as [[c2 [ts2 f2]] | x]; reflexivity.
  - cbn [bind]. destruct n as [|n]; [lia|]. cbn [b_binary_loop fst]. rewrite O. reflexivity.
Qed.

Lemma b_evaluation_alt E n st : 1 <= n ->
  b_evaluation E n st =
  (r <- (r <- b_binary_operand E n st ;; let '(c, st) := r in
         r <- b_binary_loop E n n st ;; let '(c', st) := r in Ok (c ++ c', st)) ;;
   let '(c, st) := r in
   r <- (match kind (fst st) with
         | Keyword => r <- b_keyword_message E n st ;; let '(c', st) := r in Ok (c ++ c', st)
         | _ => Ok (c, st)
         end) ;;
   let '(c, (ts, _)) := r in Ok (c, (ts, false))).
Proof.
  intros Hn. unfold b_evaluation, b_binary_operand.
  destruct (b_primary E n st) as [[c [ts f]] | x]; [|reflexivity]. cbn [bind fst].
  destruct (starts_message (kind ts)) eqn:S1.
  - unfold b_messages, b_binary_then_keyword.
    destruct (is_ident (kind ts)) eqn:I1.
    + destruct (b_unary_loop ts f) as [c1 [ts1 f1]]. cbn [bind].
      destruct (b_binary_loop E n n (ts1, f1)) as [[c2 [ts2 f2]] | x]; [|reflexivity]. cbn [bind fst].
      destruct (kind ts2); cbn [bind]; rewrite ?app_assoc; try reflexivity.
      destruct (b_keyword_message E n (ts2, f2)) as [[c3 [ts3 f3]] | x]; [|reflexivity].
      cbn [bind]. rewrite !app_assoc. reflexivity.
    + rewrite (b_unary_loop_stop ts f I1). cbn [bind]. rewrite app_nil_r.
      destruct (is_op (kind ts)) eqn:O1.
      * destruct (b_binary_loop E n n (ts, f)) as [[c2 [ts2 f2]] | x]; [|reflexivity]. cbn [bind fst].
        destruct (kind ts2); cbn [bind]; rewrite ?app_assoc; try reflexivity.
        destruct (b_keyword_message E n (ts2, f2)) as [[c3 [ts3 f3]] | x]; [|reflexivity].
        cbn [bind]. rewrite !app_assoc. reflexivity.
      * assert (K : kind ts = Keyword).
        { unfold starts_message in S1. rewrite I1, O1, orb_false_r in S1. cbn in S1. apply sym_eqb_spec, S1. }
        destruct n as [|m]; [lia|]. cbn [b_binary_loop fst]. rewrite O1. cbn [bind fst]. rewrite K, app_nil_r.
        destruct (b_keyword_message E (S m) (ts, f)) as [[c3 [ts3 f3]] | x]; reflexivity.
  - unfold starts_message in S1. apply orb_false_iff in S1. destruct S1 as [S1 S3].
    apply orb_false_iff in S1. destruct S1 as [S1 S2].
    rewrite (b_unary_loop_stop ts f S1). destruct n as [|m]; [lia|].
    cbn [bind b_binary_loop fst]. rewrite S3. cbn [bind fst]. rewrite !app_nil_r.
    destruct (kind ts); try reflexivity. discriminate S2.
Qed.

Lemma b_args_first sel args ts : G_args oo ao tok sel args ts -> args <> [] -> kind ts = Keyword.
Proof. destruct (shape oo ao tok) as [_ [_ [_ [H _]]]]. apply H. Qed.
Lemma b_args_empty sel args ts : G_args oo ao tok sel args ts -> args = [] -> ts = [] /\ sel = [].
Proof. intros H ->. inversion H. auto. Qed.

Theorem bc_follows :
  (forall e s ts, G_primary oo ao tok e s ts -> Bc_primary e s ts) /\
  (forall e s ts, G_unary oo ao tok e s ts -> Bc_unary e s ts) /\
  (forall e s ts, G_binary oo ao tok e s ts -> Bc_binary e s ts) /\
  (forall sel args ts, G_args oo ao tok sel args ts -> Bc_args sel args ts) /\
  (forall e ts, G_eval oo ao tok e ts -> Bc_eval e ts) /\
  (forall e ts, G_expr oo ao tok e ts -> Bc_expr e ts) /\
  (forall es ret ts, G_body oo ao tok es ret ts -> Bc_body es ret ts).
Proof.
  destruct (shape oo ao tok) as [Shp [Shu [Shb [Sha [She [Shx Shs]]]]]].
  apply (G_all oo ao tok).
  - intros k nm Hk Hn n rest Hl. exists [PushVar nm]. unfold b_primary. cbn [app kind ttext tl].
    apply name_ident in Hk. rewrite Hk, (text_eqb_neq _ _ Hn). split; [auto | constructor].
  - intros k Hk n rest Hl. exists [PushVar t_self]. unfold b_primary. cbn [app kind ttext tl].
    apply name_ident in Hk. rewrite Hk, text_eqb_refl. split; [auto | constructor].
  - (* parentheses *)
    intros o e ts c Hx IH n rest Hl.
    cbn in Hl. rewrite app_length in Hl. cbn in Hl.
    destruct (IH n ((EndTerm, c) :: rest)) as [cd [H1 H2]]; [lia | apply stop_endterm |].
    exists cd. split; auto.
    unfold b_primary. cbn [app kind ttext tl is_ident].
    rewrite <- app_assoc. cbn [app]. rewrite H1.
    cbn [bind]. unfold expect. cbn [kind tl]. rewrite sym_eqb_refl. reflexivity.
  - (* block *)
    intros o ps pts ls lts es ret ts c Hp Hloc Hb IH n rest Hl.
    cbn [length] in Hl. rewrite !app_length in Hl. cbn [length] in Hl.
    destruct (IH n n ((EndBlock, c) :: rest) [] false) as [code [fin [Hbody Hf]]];
      [lia | lia | reflexivity | left; auto |].
    assert (Hf' : block_code es ret (finish code fin)).
    { destruct Hf as [[-> [-> Hf]] | [_ [cs [Hf Hf']]]].
      - rewrite Hf. constructor.
      - rewrite Hf'. exact Hf. }
    exists [PushBlock ps ls (finish code fin)]. split; [|constructor; exact Hf'].
    unfold b_primary. cbn [app kind is_ident]. unfold b_nested_block.
    rewrite <- !app_assoc. cbn [app].
    assert (Hno : forall k, k <> EndBlock -> k <> Exit -> ~ starter k -> kind (ts ++ (EndBlock, c) :: rest) <> k).
    { intros k K1 K2 K3. destruct (Shs _ _ _ Hb) as [[-> _] | [S1 | S1]].
      - cbn. congruence.
      - destruct (starts_kind ts ((EndBlock, c) :: rest) S1) as [-> [S2 _]]. intros <-. auto.
      - destruct ts as [|[k' t'] r]; cbn in *; congruence. }
    rewrite (params_ok _ _ _ _ Hp).
    2:{ apply locals_kind with (ls := ls); auto; [|discriminate]. apply Hno; try discriminate.
        cbn. intuition discriminate. }
    cbn [bind]. rewrite (locals_ok _ _ _ Hloc).
    2:{ intros _. apply Hno; try discriminate. cbn. intuition discriminate. }
    cbn [bind]. rewrite Hbody. cbn [bind]. unfold expect. cbn [kind tl]. rewrite sym_eqb_refl. reflexivity.
  - (* literal *)
    intros l ts Hlit n rest Hl. exists (push_lit l). split; [|constructor].
    destruct (lit_starts _ _ Hlit) as [S1 [_ [K1 [K2 [K3 K4]]]]].
    destruct (starts_kind ts rest S1) as [K _].
    unfold b_primary. rewrite K, K4.
    rewrite (proj1 b_literal_ok _ _ Hlit) by lia.
    destruct (kind ts); try reflexivity; congruence.
  - intros e s ts Hp IH n rest Hl. destruct (IH n rest Hl) as [c [H1 H2]].
    exists c. split; auto. unfold b_binary_operand. rewrite H1. reflexivity.
  - (* unary send *)
    intros r s ts k sel Hu IH Hk n rest Hl.
    rewrite app_length in Hl. cbn in Hl.
    destruct (IH n ((k, sel) :: rest)) as [c [H1 H2]]; [lia|].
    exists (c ++ [] ++ [SendMsg s sel]). split; [|constructor; [auto | constructor]].
    rewrite <- app_assoc. cbn [app]. rewrite H1. cbn [b_unary_loop].
    apply name_ident in Hk. rewrite Hk. destruct (b_unary_loop rest false) as [c' st].
    rewrite <- app_assoc. reflexivity.
  - intros e s ts Hu IH n k rest Hl Hkn Hr. destruct (IH n rest Hl) as [c [H1 H2]].
    exists c, k. split; [|split; auto].
    + rewrite H1. rewrite b_unary_loop_stop by auto. cbn [bind]. rewrite app_nil_r. reflexivity.
    + destruct (Shu _ _ _ Hu) as [S1 _]. destruct (starts_kind ts [] S1) as [_ [_ L]]. lia.
  - (* binary send *)
    intros l s ts k op r s' ts' Hb IHl Hk Hu IHr Hok n q rest Hl Hqn Hr.
    rewrite app_length in Hl. cbn in Hl.
    apply operator_op in Hk.
    destruct (IHl n q ((k, op) :: ts' ++ rest)) as [cl [m [H1 [H2 H3]]]];
      [lia | lia | cbn; apply op_not_ident; auto |].
    destruct (IHr n rest) as [cr [H4 H5]]; [lia|].
    destruct Hok as [Hs Hone]. hnf in Hs. subst s'.
    destruct m as [|m]; [lia|].
    destruct (Shu _ _ _ Hu) as [[ku [tu [ru [Eu _]]]] _].
    destruct ((text_eqb op t_plus || text_eqb op t_minus) && negb s
              && sym_eqb (kind (ts' ++ rest)) Integer && text_eqb (ttext (ts' ++ rest)) t_one) eqn:Inc.
    + assert (I := Inc).
      rewrite !andb_true_iff, negb_true_iff, orb_true_iff in I. destruct I as [[[Iop ->] Ik] It].
      rewrite Eu in Ik, It. cbn in Ik, It. apply sym_eqb_spec in Ik. apply text_eqb_spec in It. subst ku tu.
      assert (Eone : ru = []).
      { apply (Hone eq_refl) with (r := ru); [|exact Eu].
        destruct Iop as [Iop | Iop]; apply text_eqb_spec in Iop; auto. }
      subst ru. subst ts'. apply single_int_unary in Hu. subst r. cbn [app] in H1, H4, Inc.
      exists (cl ++ [if text_eqb op t_plus then IncTop else DecTop]), m. split; [|split].
      * rewrite <- app_assoc. cbn [app]. rewrite H1. cbn [b_binary_loop fst kind]. rewrite Hk.
        unfold b_binary_message, binary_selector. cbn [kind ttext tl]. rewrite Hk. cbn [bind].
        cbn [kind ttext] in Inc |- *. rewrite Inc. cbn [bind tl app].
        destruct (b_binary_loop (b_expression n) n m (rest, false)) as [[c2 st2] | x]; [|reflexivity].
        cbn [bind]. rewrite <- app_assoc. reflexivity.
      * destruct (text_eqb op t_plus) eqn:P.
        -- apply text_eqb_spec in P. subst op. constructor. auto.
        -- cbn in Iop. destruct Iop as [Iop | Iop]; [discriminate|]. apply text_eqb_spec in Iop. subst op.
           constructor. auto.
      * rewrite app_length. cbn. lia.
    + exists (cl ++ (cr ++ []) ++ [SendMsg s op]), m. split; [|split].
      * rewrite <- app_assoc. cbn [app]. rewrite H1. cbn [b_binary_loop fst kind]. rewrite Hk.
        unfold b_binary_message, binary_selector. cbn [kind ttext tl]. rewrite Hk. cbn [bind].
        rewrite Inc. rewrite H4. rewrite b_unary_loop_stop by auto. cbn [bind].
        destruct (b_binary_loop (b_expression n) n m (rest, false)) as [[c2 st2] | x]; [|reflexivity].
        cbn [bind]. rewrite <- !app_assoc. reflexivity.
      * constructor; auto. constructor; [auto | constructor].
      * rewrite app_length. cbn. lia.
  - intros n k rest Hl Hk R1 R2 R3. destruct k; [cbn in Hk; lia|].
    exists []. split; [|constructor]. cbn [b_keyword_loop app]. destruct (kind rest); try reflexivity. contradiction.
  - (* arguments *)
    intros key e s ts sel args ts' Hb IHb Ha IHa n k rest Hl Hk R1 R2 R3.
    cbn [length] in Hl, Hk. rewrite app_length in Hl, Hk.
    destruct (Shb _ _ _ Hb) as [S1 _]. destruct (starts_kind ts [] S1) as [_ [_ L]].
    destruct k; [lia|].
    assert (Hkd : is_ident (kind (ts' ++ rest)) = false /\ is_op (kind (ts' ++ rest)) = false).
    { destruct args.
      - destruct (b_args_empty _ _ _ Ha eq_refl) as [-> ->]. split; auto.
      - rewrite kind_app_cons; [rewrite (b_args_first _ _ _ Ha) by discriminate; split; reflexivity|].
        intros ->. pose proof (b_args_first _ _ _ Ha). cbn in H. discriminate H. discriminate. }
    destruct Hkd as [Hkd1 Hkd2].
    destruct (IHb n (S n) (ts' ++ rest)) as [c [m [H1 [H2 H3]]]]; [lia | lia | auto |].
    destruct m as [|m]; [lia|].
    destruct (IHa n k rest) as [c2 [H4 H5]]; [lia | lia | auto | auto | auto |].
    exists (c ++ c2). split; [|constructor; auto].
    cbn [b_keyword_loop app kind]. unfold keyword, expect. cbn [kind]. rewrite sym_eqb_refl.
    cbn [bind tl ttext]. rewrite b_formula_alt by lia. rewrite <- app_assoc.
    rewrite H1. cbn [b_binary_loop fst]. rewrite Hkd2. cbn [bind]. rewrite H4. cbn [bind].
    rewrite app_nil_r. reflexivity.
  - (* evaluation without keyword message *)
    intros e s ts Hb IH n rest Hl [R1 [R2 [R3 R4]]].
    destruct (Shb _ _ _ Hb) as [S1 _]. destruct (starts_kind ts [] S1) as [_ [_ L]].
    destruct (IH n n rest Hl (le_n n) R1) as [c [m [H1 [H2 H3]]]]. destruct m as [|m]; [lia|].
    exists c. split; auto.
    rewrite b_evaluation_alt by lia. rewrite H1. cbn [b_binary_loop fst]. rewrite R2. cbn [bind fst].
    rewrite app_nil_r. destruct (kind rest); try reflexivity. contradiction.
  - (* evaluation with a keyword message *)
    intros r s ts sel args ts' Hb IHb Ha IHa Hne Hok n rest Hl [R1 [R2 [R3 R4]]].
    rewrite app_length in Hl.
    destruct (Shb _ _ _ Hb) as [S1 _]. destruct (starts_kind ts [] S1) as [_ [_ L]].
    pose proof (b_args_first _ _ _ Ha Hne) as Kw.
    assert (Kw' : kind (ts' ++ rest) = Keyword).
    { rewrite kind_app_cons; auto. intros ->. discriminate Kw. }
    destruct (IHb n n (ts' ++ rest)) as [c [m [H1 [H2 H3]]]];
      [lia | lia | rewrite Kw'; reflexivity |].
    destruct m as [|m]; [lia|].
    destruct (IHa n (S n) rest) as [c2 [H4 H5]]; [lia | lia | auto | auto | auto |].
    exists (c ++ c2 ++ [SendMsg s sel]). split; [|constructor; auto].
    rewrite <- app_assoc. rewrite b_evaluation_alt by lia. rewrite H1.
    cbn [b_binary_loop fst]. rewrite Kw'. cbn [is_op is_single_op bind fst]. rewrite Kw'.
    unfold b_keyword_message.
    cbn [b_keyword_loop] in H4. rewrite Kw' in H4.
    destruct (keyword (ts' ++ rest)) as [[s1 ts1] | x]; [|discriminate H4].
    cbn [bind] in H4 |- *.
    destruct (b_formula (b_expression n) n (ts1, false)) as [[c3 st3] | x]; [|discriminate H4].
    cbn [bind] in H4 |- *.
    destruct (b_keyword_loop (b_expression n) n n st3) as [[[sel4 c4] [ts4 f4]] | x]; [|discriminate H4].
    cbn [bind] in H4 |- *.
    injection H4 as E1 E2 E3 E4. subst. rewrite app_nil_r, <- !app_assoc. reflexivity.
  - (* expression: evaluation *)
    intros e ts He IH n rest Hl Hr. destruct n as [|n]; [lia|].
    destruct (IH n rest) as [c [H1 H2]]; [lia | auto |]. exists c. split; auto.
    cbn [b_expression]. unfold b_expression_. cbn [fst].
    destruct (She _ _ He) as [[k [t [r [-> Hk]]]] S2].
    assert (NA : sym_eqb (kind (tl (((k, t) :: r) ++ rest))) Assign = false).
    { apply sym_eqb_neq. cbn. destruct r as [|[k2 t2] r]; cbn in *; [apply Hr | exact S2]. }
    rewrite NA. exact H1.
  - (* assignment *)
    intros vs vts e ts Hv He IH n rest Hl Hr. destruct n as [|n]; [lia|].
    rewrite app_length in Hl.
    destruct (targets_starts _ _ _ Hv) as [_ [L2 [a [b [c [_ [E _]]]]]]].
    destruct (IH n rest) as [cd [H1 H2]]; [lia | auto |].
    exists (cd ++ repeat DupTop (length vs) ++ map PopVar vs). split; [|constructor; auto].
    cbn [b_expression]. unfold b_expression_. cbn [fst].
    assert (IS : sym_eqb (kind (tl ((vts ++ ts) ++ rest))) Assign = true).
    { rewrite E. reflexivity. }
    rewrite IS. clear IS E.
    assert (M : forall k, length vts <= k ->
       b_assignments k ((vts ++ ts) ++ rest) = Ok (vs, ts ++ rest)).
    { clear H1 H2 Hl L2 a b c.
      destruct (She _ _ He) as [[k0 [t0 [r0 [E0 Hk0]]]] S2].
      induction Hv as [k v a Hk Ht | k v a vs ts1 Hk Ht Hv IHv]; intros q Hq'; cbn [length] in Hq'.
      - destruct q as [|q]; [lia|]. cbn [b_assignments app]. cbn [kind ttext tl].
        apply name_ident in Hk. rewrite Hk. cbn [bind]. unfold expect. cbn [kind tl].
        rewrite sym_eqb_refl. cbn [bind].
        assert (NA : sym_eqb (kind (tl (ts ++ rest))) Assign = false).
        { apply sym_eqb_neq. subst ts. cbn. destruct r0 as [|[k2 t2] r]; cbn in *; [apply Hr | exact S2]. }
        rewrite NA. reflexivity.
      - destruct q as [|q]; [lia|]. cbn [b_assignments app]. cbn [kind ttext tl].
        apply name_ident in Hk. rewrite Hk. cbn [bind]. unfold expect. cbn [kind tl].
        rewrite sym_eqb_refl. cbn [bind].
        destruct (targets_starts _ _ _ Hv) as [_ [L2 [a' [b [c [_ [E _]]]]]]].
        assert (IS : sym_eqb (kind (tl ((ts1 ++ ts) ++ rest))) Assign = true).
        { rewrite E. reflexivity. }
        rewrite IS. rewrite IHv; [|lia]. reflexivity. }
    unfold b_assignation. rewrite M.
    + cbn [bind]. rewrite H1. reflexivity.
    + destruct (She _ _ He) as [S1 _]. destruct (starts_kind ts [] S1) as [_ [_ L]]. lia.
  - (* empty body *)
    intros n k rest code seen Hl Hk Hr Hc. destruct k; [cbn in Hk; lia|].
    cbn [b_block_body app]. rewrite Hr.
    destruct Hc as [[-> ->] | [c0 [N0 [-> ->]]]].
    + do 2 eexists. split; [reflexivity|]. left. repeat split.
    + do 2 eexists. split; [reflexivity|]. left. split; [auto|]. split; [auto|].
      intros c1 E1. apply app_inj_tail in E1. destruct E1 as [<- _].
      unfold finish, remove_last_pop. rewrite rev_unit, rev_involutive.
      destruct c0; [contradiction|]. reflexivity.
  - (* last statement *)
    intros e ts Hx IH n k rest code seen Hl Hk Hr Hc.
    pose proof (Shx _ _ Hx) as S1. destruct (starts_kind ts rest S1) as [K [Ks L]].
    destruct k as [|k]; [lia|].
    destruct (IH n rest) as [c [H1 H2]]; [lia | apply stop_end; auto |].
    exists (code ++ c), false. split.
    + assert (B : b_block_body (b_expression n) (S k) true seen code (ts ++ rest, false) =
        (r <- b_expression n (ts ++ rest, false) ;; let '(c, (ts, f)) := r in
          match accept Period ts with
          | (true, ts) => b_block_body (b_expression n) k true true (code ++ c ++ [PopTop]) (ts, f)
          | (false, ts) => Ok (code ++ c, false, (ts, f))
          end)).
      { cbn [b_block_body]. rewrite K. clear - Ks. destruct (kind ts); try reflexivity;
          cbn in Ks; intuition discriminate. }
      rewrite B, H1. cbn [bind]. unfold accept. rewrite sym_eqb_neq by (rewrite Hr; discriminate). reflexivity.
    + right. split; [left; discriminate|]. exists (c ++ [RetLocal]). split; [constructor; auto|].
      unfold finish. pose proof (postfix_nonempty _ _ H2) as N.
      destruct (code ++ c) eqn:E; [apply app_eq_nil in E; destruct E; contradiction|].
      rewrite <- E, app_assoc. reflexivity.
  - (* more statements *)
    intros e ts p es ret ts' Hx IHx Hb IHb n k rest code seen Hl Hk Hr Hc.
    rewrite app_length in Hl, Hk. cbn in Hl, Hk.
    pose proof (Shx _ _ Hx) as S1.
    destruct (starts_kind ts ((Period, p) :: ts' ++ rest) S1) as [K [Ks L]].
    destruct k as [|k]; [lia|].
    destruct (IHx n ((Period, p) :: ts' ++ rest)) as [c [H1 H2]]; [lia | apply stop_period |].
    pose proof (postfix_nonempty _ _ H2) as N.
    destruct (IHb n k rest (code ++ c ++ [PopTop]) true) as [code' [fin [H3 H4]]]; [lia | lia | auto | |].
    { right. exists (code ++ c). split; [apply app_nonempty_r; auto|]. split; [apply app_assoc | auto]. }
    exists code', fin. split.
    + rewrite <- app_assoc. cbn [app].
      assert (B : b_block_body (b_expression n) (S k) true seen code (ts ++ (Period, p) :: ts' ++ rest, false) =
        (r <- b_expression n (ts ++ (Period, p) :: ts' ++ rest, false) ;; let '(c, (ts, f)) := r in
          match accept Period ts with
          | (true, ts) => b_block_body (b_expression n) k true true (code ++ c ++ [PopTop]) (ts, f)
          | (false, ts) => Ok (code ++ c, false, (ts, f))
          end)).
      { cbn [b_block_body]. rewrite K. clear - Ks. destruct (kind ts); try reflexivity;
          cbn in Ks; intuition discriminate. }
      rewrite B, H1. cbn [bind]. unfold accept. cbn [kind]. rewrite sym_eqb_refl. cbn [tl]. exact H3.
    + right. split; [left; discriminate|].
      destruct H4 as [[-> [-> H4]] | [H4 [cs [H5 H6]]]].
      * exists (c ++ [RetLocal]). split; [constructor; auto|].
        rewrite (H4 (code ++ c)) by apply app_assoc. rewrite app_assoc. reflexivity.
      * exists (c ++ PopTop :: cs). split; [constructor; auto|].
        rewrite H6. rewrite <- !app_assoc. reflexivity.
  - (* return *)
    intros x e ts dot Hx IH Hd n k rest code seen Hl Hk Hr Hc.
    destruct k as [|k]; [cbn in Hk; lia|].
    cbn [length] in Hl, Hk. rewrite app_length in Hl, Hk.
    destruct (IH n (dot ++ rest)) as [c [H1 H2]];
      [lia | destruct Hd as [-> | [p ->]]; cbn [app]; [apply stop_end; auto | apply stop_period] |].
    exists (code ++ c ++ [RetNonLocal]), true. split.
    + cbn [b_block_body app kind tl]. unfold b_result. cbn [negb andb]. rewrite <- app_assoc, H1. cbn [bind].
      destruct Hd as [-> | [p ->]]; cbn [app]; unfold accept.
      * rewrite sym_eqb_neq by (rewrite Hr; discriminate). reflexivity.
      * cbn [kind]. rewrite sym_eqb_refl. reflexivity.
    + right. split; [right; discriminate|]. exists (c ++ [RetNonLocal]). split; [constructor; auto|]. reflexivity.
Qed.
End BcProof.

(** * Methods *)
Lemma key_params_ok sel xs ts rest : G_key_params sel xs ts -> kind rest <> Keyword ->
  keyword_pattern (ts ++ rest) = Ok (sel, xs, rest).
Proof.
  intros H Hr. induction H.
  - cbn. destruct rest as [|[k t] r]; [reflexivity|]. cbn in Hr. destruct k; try reflexivity. contradiction.
  - cbn. apply name_ident in H. rewrite H, IHG_key_params. reflexivity.
Qed.
Lemma pattern_ok sel ps ts rest : G_pattern sel ps ts -> kind rest <> Keyword ->
  pattern (ts ++ rest) = Ok (sel, ps, rest).
Proof.
  intros H Hr. unfold pattern. inversion H; subst.
  - cbn [app kind ttext tl]. apply name_ident in H0. rewrite H0. reflexivity.
  - cbn [app kind ttext tl]. apply operator_op in H0. rewrite (op_not_ident _ H0).
    unfold binary_selector, identifier. cbn [kind ttext tl]. rewrite H0. cbn [bind kind ttext tl].
    apply name_ident in H1. rewrite H1. destruct k; try reflexivity. discriminate.
  - destruct H1; [contradiction|].
    change (keyword_pattern (((Keyword, s) :: (k, x) :: ts) ++ rest) = Ok (s ++ sel, x :: xs, rest)).
    apply key_params_ok; [constructor; auto | auto].
Qed.
Lemma pattern_kind sel ps ts : G_pattern sel ps ts ->
  starts_pattern (kind ts) = true /\ 1 <= length ts.
Proof.
  intros H. unfold starts_pattern. inversion H; subst; cbn [kind].
  - apply name_ident in H0. rewrite H0. split; [reflexivity | cbn; lia].
  - apply operator_op in H0. rewrite H0, orb_true_r. split; [reflexivity | cbn; lia].
  - destruct H1; [contradiction|]. cbn. split; [reflexivity | lia].
Qed.

Lemma body_kind oo ao tok es ret ts c rest k :
  G_body oo ao tok es ret ts -> k <> EndTerm -> k <> Exit -> ~ starter k ->
  kind (ts ++ (EndTerm, c) :: rest) <> k.
Proof.
  intros Hb K1 K2 K3. destruct (shape oo ao tok) as [_ [_ [_ [_ [_ [_ Shs]]]]]].
  destruct (Shs _ _ _ Hb) as [[-> _] | [S1 | S1]].
  - cbn. congruence.
  - destruct (starts_kind ts ((EndTerm, c) :: rest) S1) as [-> [S2 _]]. intros <-. auto.
  - destruct ts as [|[k' t'] r]; cbn in *; congruence.
Qed.

Theorem ast_method_ok m ts n rest :
  G_method not_super_operand quiet_first_arg assignable m ts -> length ts < n ->
  a_method n (ts ++ rest, false) = Ok (m, (rest, false)).
Proof.
  intros H Hl. unfold a_method. inversion H; subst.
  - rewrite app_length in Hl. cbn [length] in Hl. rewrite !app_length in Hl. cbn [length] in Hl.
    rewrite <- app_assoc. cbn [app]. rewrite (pattern_ok _ _ _ _ H0) by discriminate. cbn [bind].
    unfold expect at 1. cbn [kind tl]. rewrite sym_eqb_refl. cbn [bind kind].
    unfold expect at 1. cbn [kind tl]. rewrite sym_eqb_refl. cbn [bind].
    rewrite <- !app_assoc. cbn [app]. rewrite (locals_ok _ _ _ H1).
    2:{ intros _. eapply body_kind; [exact H2 | discriminate | discriminate |]. cbn. intuition discriminate. }
    cbn [bind].
    destruct (proj2 (proj2 (proj2 (proj2 (proj2 (proj2 ast_follows))))) _ _ _ H2 n n ((EndTerm, c) :: rest) false)
      as [f' [B1 B2]]; [lia | lia | apply quiet_false | right; reflexivity |].
    rewrite B1, (B2 eq_refl). cbn [bind]. unfold expect. cbn [kind tl]. rewrite sym_eqb_refl. reflexivity.
  - rewrite <- app_assoc. cbn [app]. rewrite (pattern_ok _ _ _ _ H0) by discriminate. cbn [bind].
    unfold expect at 1. cbn [kind tl]. rewrite sym_eqb_refl. reflexivity.
Qed.

(** After a name comes a message, [:=] or the end of the expression. *)
Definition after_name (ts : tokens) : Prop :=
  match ts with
  | (k, _) :: (k2, _) :: _ => is_ident k = true -> starts_message k2 = true \/ k2 = Assign
  | _ => True
  end.
Lemma after_name_app ts ts' : starts ts -> after_name ts ->
  (forall k t, ts' = (k, t) :: tl ts' -> starts_message k = true \/ k = Assign) -> after_name (ts ++ ts').
Proof.
  intros [k [t [r [-> _]]]] H H'. destruct r as [|[k2 t2] r]; cbn in *; auto.
  destruct ts' as [|[k2 t2] r]; auto. intros _. apply (H' k2 t2). reflexivity.
Qed.
Lemma name_msg k : name_token k -> starts_message k = true \/ k = Assign.
Proof. intros H. apply name_ident in H. left. unfold starts_message. rewrite H. reflexivity. Qed.
Lemma op_msg k : operator_token k -> starts_message k = true \/ k = Assign.
Proof. intros H. apply operator_op in H. left. unfold starts_message. rewrite H. apply orb_true_r. Qed.

Section After.
Variable oo : bool -> text -> bool -> tokens -> Prop.
Variable ao : bool -> list expr -> Prop.
Variable tok : text -> Prop.
Lemma lit_after l ts : G_lit l ts -> after_name ts.
Proof.
  intros H. inversion H; subst; cbn; auto; intros; discriminate.
Qed.
Lemma after_names :
  (forall e s ts, G_primary oo ao tok e s ts -> after_name ts) /\
  (forall e s ts, G_unary oo ao tok e s ts -> after_name ts) /\
  (forall e s ts, G_binary oo ao tok e s ts -> after_name ts) /\
  (forall sel args ts, G_args oo ao tok sel args ts -> True) /\
  (forall e ts, G_eval oo ao tok e ts -> after_name ts) /\
  (forall e ts, G_expr oo ao tok e ts -> after_name ts) /\
  (forall es ret ts, G_body oo ao tok es ret ts -> True).
Proof.
  destruct (shape oo ao tok) as [Shp [Shu [Shb [Sha [She [Shx Shs]]]]]].
  apply (G_all oo ao tok); intros; try exact I; auto.
  - cbn. destruct (ts ++ [(EndTerm, c)]) as [|[k t] r]; auto. discriminate.
  - cbn [app]. destruct (pts ++ lts ++ ts ++ [(EndBlock, c)]) as [|[k t] r]; cbn; auto. discriminate.
  - apply (lit_after l). auto.
  - apply after_name_app; auto; [apply (Shu _ _ _ g)|]. intros k' t' E. cbn in E. injection E as <- <-.
    apply name_msg. auto.
  - apply after_name_app; auto; [apply (Shb _ _ _ g)|]. intros k' t' E. cbn in E. injection E as <- <-.
    apply op_msg. auto.
  - apply after_name_app; auto; [apply (Shb _ _ _ g)|]. intros k' t' E.
    pose proof (Sha _ _ _ g0 n) as K. rewrite E in K. cbn in K. subst k'. left. reflexivity.
  - destruct g; cbn; auto.
Qed.
Lemma single_name e k t : G_expr oo ao tok e [(k, t)] -> is_ident k = true -> t <> t_super -> e = Var t.
Proof.
  intros H Hk Ht.
  assert (U1 : forall x a b r y, G_unary oo ao tok x a r -> r ++ [b] = [y] -> False).
  { intros x a b r y U E. destruct (shape oo ao tok) as [_ [Shu _]].
    destruct (Shu _ _ _ U) as [[k1 [t1 [r1 [-> _]]]] _]. cbn in E.
    destruct r1; discriminate. }
  assert (B1 : forall x a r z q y, G_binary oo ao tok x a r -> r ++ z :: q = [y] -> False).
  { intros x a r z q y U E. destruct (shape oo ao tok) as [_ [_ [Shb _]]].
    destruct (Shb _ _ _ U) as [[k1 [t1 [r1 [-> _]]]] _]. cbn in E.
    destruct r1; discriminate. }
  inversion H as [e1 ts1 H1 E1 E2 | vs vts e1 ts1 H1 H2 E1 E2]; subst.
  - inversion H1 as [e2 s2 ts2 H2 E1 E2 | r2 s2 ts2 sel args ts3 H2 H3 N2 O2 E1 E2]; subst.
    + inversion H2 as [e3 s3 ts3 H3 E1 E2 E3 | l3 s3 ts3 k3 op r3 s3' ts3' H3 K3 H3' O3 E1 E2 E3]; subst.
      * inversion H3 as [e4 s4 ts4 H4 E1 E2 E3 | r4 s4 ts4 k4 sel H4 K4 E1 E2 E3]; subst.
        -- inversion H4 as [k5 n5 K5 N5 | k5 K5 | o5 e5 ts5 c5 H5 |
                            o5 ps5 pts5 ls5 lts5 es5 ret5 ts5 c5 H5 | l5 ts5 H5]; subst; auto; try discriminate.
           ++ contradiction.
           ++ inversion H5; subst; discriminate.
        -- exfalso. eapply U1; eauto.
      * exfalso. eapply B1; eauto.
    + exfalso. destruct (shape oo ao tok) as [_ [_ [_ [Sha _]]]].
      pose proof (Sha _ _ _ H3 N2) as K. destruct ts3 as [|z q]; [discriminate|]. eapply B1; eauto.
  - exfalso. destruct H1; cbn in *; discriminate.
Qed.
End After.

Definition end_method (code : list ev) (fin : bool) : list ev := if fin then code else code ++ [RetSelf].
Theorem bc_body_ok es ret ts : G_body whole_one any_args any_target es ret ts ->
  forall n k rest code seen, length ts < n -> length ts < k -> kind rest = EndTerm ->
  exists code' fin cs, b_block_body (b_expression n) k false seen code (ts ++ rest, false)
                    = Ok (code', fin, (rest, false)) /\
     method_code es ret cs /\ end_method code' fin = code ++ cs.
Proof.
  destruct (shape whole_one any_args any_target) as [Shp [Shu [Shb [Sha [She [Shx Shs]]]]]].
  destruct bc_follows as [_ [_ [_ [_ [_ [Bx _]]]]]].
  induction 1 as [| e ts Hx | e ts p es ret ts' Hx Hb IHb | x e ts dot Hx Hd];
    intros n k rest code seen Hl Hk Hr.
  - destruct k; [cbn in Hk; lia|]. cbn [b_block_body app]. rewrite Hr.
    do 2 eexists. exists [RetSelf]. split; [reflexivity|]. split; [constructor | reflexivity].
  - pose proof (Shx _ _ Hx) as S1. destruct (starts_kind ts rest S1) as [K [Ks L]].
    destruct k as [|k]; [lia|].
    destruct (Bx _ _ Hx n rest) as [c [H1 H2]]; [lia | apply stop_end; auto |].
    exists (code ++ c), false, (c ++ [RetSelf]). split; [|split].
    + assert (B : b_block_body (b_expression n) (S k) false seen code (ts ++ rest, false) =
        (r <- b_expression n (ts ++ rest, false) ;; let '(c, (ts, f)) := r in
          match accept Period ts with
          | (true, ts) => b_block_body (b_expression n) k false true (code ++ c ++ [PopTop]) (ts, f)
          | (false, ts) => Ok (code ++ c, false, (ts, f))
          end)).
      { cbn [b_block_body]. rewrite K. clear - Ks. destruct (kind ts); try reflexivity;
          cbn in Ks; intuition discriminate. }
      rewrite B, H1. cbn [bind]. unfold accept. rewrite sym_eqb_neq by (rewrite Hr; discriminate). reflexivity.
    + constructor; auto.
    + unfold end_method. rewrite app_assoc. reflexivity.
  - rewrite app_length in Hl, Hk. cbn in Hl, Hk.
    pose proof (Shx _ _ Hx) as S1.
    destruct (starts_kind ts ((Period, p) :: ts' ++ rest) S1) as [K [Ks L]].
    destruct k as [|k]; [lia|].
    destruct (Bx _ _ Hx n ((Period, p) :: ts' ++ rest)) as [c [H1 H2]]; [lia | apply stop_period |].
    destruct (IHb n k rest (code ++ c ++ [PopTop]) true) as [code' [fin [cs [H3 [H4 H5]]]]]; [lia | lia | auto |].
    exists code', fin, (c ++ PopTop :: cs). split; [|split].
    + rewrite <- app_assoc. cbn [app].
      assert (B : b_block_body (b_expression n) (S k) false seen code (ts ++ (Period, p) :: ts' ++ rest, false) =
        (r <- b_expression n (ts ++ (Period, p) :: ts' ++ rest, false) ;; let '(c, (ts, f)) := r in
          match accept Period ts with
          | (true, ts) => b_block_body (b_expression n) k false true (code ++ c ++ [PopTop]) (ts, f)
          | (false, ts) => Ok (code ++ c, false, (ts, f))
          end)).
      { cbn [b_block_body]. rewrite K. clear - Ks. destruct (kind ts); try reflexivity;
          cbn in Ks; intuition discriminate. }
      rewrite B, H1. cbn [bind]. unfold accept. cbn [kind]. rewrite sym_eqb_refl. cbn [tl]. exact H3.
    + constructor; auto.
    + rewrite H5, <- !app_assoc. reflexivity.
  - destruct k as [|k]; [cbn in Hk; lia|].
    cbn [length] in Hl, Hk. rewrite app_length in Hl, Hk.
    cbn [b_block_body app kind tl]. unfold b_result. cbn [negb andb]. rewrite <- app_assoc.
    destruct (sym_eqb (kind (ts ++ dot ++ rest)) Identifier
              && text_eqb (ttext (ts ++ dot ++ rest)) t_self
              && (sym_eqb (kind (tl (ts ++ dot ++ rest))) Period
                  || sym_eqb (kind (tl (ts ++ dot ++ rest))) EndTerm)) eqn:Q.
    + apply andb_true_iff in Q. destruct Q as [Q Q3]. apply andb_true_iff in Q. destruct Q as [Q1 Q2].
      apply sym_eqb_spec in Q1. apply text_eqb_spec in Q2.
      destruct (Shx _ _ Hx) as [k0 [t0 [r0 [E0 Hk0]]]]. subst ts. cbn [app kind ttext tl] in Q1, Q2, Q3.
      subst k0 t0.
      assert (r0 = []).
      { destruct r0 as [|[k2 t2] r0]; auto. exfalso.
        pose proof (proj1 (proj2 (proj2 (proj2 (proj2 (proj2 (after_names whole_one any_args any_target))))))
                      _ _ Hx) as A.
        cbn in A. specialize (A eq_refl). cbn in Q3. apply orb_true_iff in Q3.
        destruct Q3 as [Q3 | Q3]; apply sym_eqb_spec in Q3; subst k2; destruct A; discriminate. }
      subst r0. apply single_name in Hx; [|reflexivity | discriminate]. subst e.
      exists (code ++ [RetSelf]), true, [RetSelf]. split; [|split; [constructor | reflexivity]].
      cbn [app tl]. destruct Hd as [-> | [p ->]]; cbn [app]; unfold accept.
      * rewrite sym_eqb_neq by (rewrite Hr; discriminate). reflexivity.
      * cbn [kind]. rewrite sym_eqb_refl. reflexivity.
    + destruct (Bx _ _ Hx n (dot ++ rest)) as [c [H1 H2]];
        [lia | destruct Hd as [-> | [p ->]]; cbn [app]; [apply stop_end; auto | apply stop_period] |].
      exists (code ++ c ++ [RetLocal]), true, (c ++ [RetLocal]). split; [|split; [constructor; auto | reflexivity]].
      rewrite H1. cbn [bind]. destruct Hd as [-> | [p ->]]; cbn [app]; unfold accept.
      * rewrite sym_eqb_neq by (rewrite Hr; discriminate). reflexivity.
      * cbn [kind]. rewrite sym_eqb_refl. reflexivity.
Qed.

Theorem bc_method_ok m ts n rest :
  G_method whole_one any_args any_target m ts -> length ts < n ->
  exists b, b_method n (ts ++ rest, false) = Ok (b, (rest, false)) /\ compiles m b.
Proof.
  intros H Hl. unfold b_method. inversion H; subst.
  - rewrite app_length in Hl. cbn [length] in Hl. rewrite !app_length in Hl. cbn [length] in Hl.
    destruct (bc_body_ok _ _ _ H2 n n ((EndTerm, c) :: rest) [] false) as [code [fin [cs [B1 [B2 B3]]]]];
      [lia | lia | reflexivity |].
    exists {| bm_selector := sel; bm_params := ps; bm_body := Some (ls, cs) |}. split; [|constructor; auto].
    rewrite <- app_assoc. cbn [app]. rewrite (pattern_ok _ _ _ _ H0) by discriminate. cbn [bind].
    unfold expect at 1. cbn [kind tl]. rewrite sym_eqb_refl. cbn [bind kind].
    unfold expect at 1. cbn [kind tl]. rewrite sym_eqb_refl. cbn [bind].
    rewrite <- !app_assoc. cbn [app]. rewrite (locals_ok _ _ _ H1).
    2:{ intros _. eapply body_kind; [exact H2 | discriminate | discriminate |]. cbn. intuition discriminate. }
    cbn [bind]. rewrite B1. cbn [bind]. unfold expect. cbn [kind tl]. rewrite sym_eqb_refl. cbn [bind].
    unfold end_method in B3. rewrite B3. reflexivity.
  - exists {| bm_selector := sel; bm_params := ps; bm_body := None |}. split; [|constructor].
    rewrite <- app_assoc. cbn [app]. rewrite (pattern_ok _ _ _ _ H0) by discriminate. cbn [bind].
    unfold expect at 1. cbn [kind tl]. rewrite sym_eqb_refl. reflexivity.
Qed.

(** * Classes *)
Section ClassProof.
Variable oo : bool -> text -> bool -> tokens -> Prop.
Variable ao : bool -> list expr -> Prop.
Variable tok : text -> Prop.
Context {M : Type}.
Variable n : nat.
Variable meth : pstate -> res (M * pstate).
Variable rel : method -> M -> Prop.
Hypothesis meth_ok : forall m ts rest, G_method oo ao tok m ts -> length ts < n ->
  exists b, meth (ts ++ rest, false) = Ok (b, (rest, false)) /\ rel m b.

Lemma method_kind m ts : G_method oo ao tok m ts ->
  (forall r, kind (ts ++ r) = kind ts) /\ starts_pattern (kind ts) = true /\ 1 <= length ts.
Proof.
  intros H. inversion H; subst; destruct (pattern_kind _ _ _ H0) as [A B];
    (destruct pts as [|[k t] q]; [cbn in B; lia|]); cbn; repeat split; auto; lia.
Qed.

Lemma methods_ok ms ts : G_methods oo ao tok ms ts ->
  forall k rest, length ts < n -> length ts < k -> starts_pattern (kind rest) = false ->
  exists bs, methods meth k (ts ++ rest, false) = Ok (bs, (rest, false)) /\ Forall2 rel ms bs.
Proof.
  induction 1 as [| m ts ms ts' Hm Hms IH]; intros k rest Hl Hk Hr.
  - destruct k; [lia|]. exists []. cbn [methods app fst]. rewrite Hr. auto.
  - rewrite app_length in Hl, Hk. destruct (method_kind _ _ Hm) as [A [B C]].
    destruct k; [lia|]. rewrite <- app_assoc.
    destruct (meth_ok _ _ (ts' ++ rest) Hm) as [b [H1 H2]]; [lia|].
    destruct (IH k rest) as [bs [H3 H4]]; [lia | lia | auto |].
    exists (b :: bs). split; [|constructor; auto].
    cbn [methods fst]. rewrite A, B, H1. cbn [bind]. rewrite H3. reflexivity.
Qed.

Lemma methods_kind ms ts : G_methods oo ao tok ms ts ->
  ts = [] \/ (forall r, kind (ts ++ r) = kind ts) /\ 1 <= length ts.
Proof.
  intros H. destruct H; [auto|]. right. destruct (method_kind _ _ H) as [A [B C]].
  destruct ts as [|[k t] q]; [cbn in C; lia|]. cbn. split; auto. lia.
Qed.

Lemma class_ok c ts rest : G_class oo ao tok c ts -> length ts < n ->
  exists b, class_definition meth n (ts ++ rest, false) = Ok (b, (rest, false)) /\
    c_name _ b = c_name _ c /\ c_super _ b = c_super _ c /\
    c_fields _ b = c_fields _ c /\ Forall2 rel (c_methods _ c) (c_methods _ b) /\
    c_class_fields _ b = c_class_fields _ c /\
    Forall2 rel (c_class_methods _ c) (c_class_methods _ b).
Proof.
  intros H Hl. inversion H as [name eq sup sts o fs fts ms mts side cfs cms cc Hsup Hf Hm Hbar Hside E1 E2].
  subst c ts. cbn [c_name c_super c_fields c_methods c_class_fields c_class_methods].
  assert (Hl' : length sts + length fts + length mts + length side + 4 < n).
  { cbn [length] in Hl. rewrite !app_length in Hl. cbn [length] in Hl. rewrite !app_length in Hl. cbn [length] in Hl. lia. }
  assert (Hside' : exists sms sts', Forall2 rel cms sms /\
    (match kind (side ++ (EndTerm, cc) :: rest) with
       | Separator =>
           r <- block_locals (tl (side ++ (EndTerm, cc) :: rest)) ;; let '(cfs, ts) := r in
           r <- methods meth n (ts, false) ;; let '(cms, st) := r in Ok (cfs, cms, st)
       | _ => Ok ([], [], (side ++ (EndTerm, cc) :: rest, false))
       end) = Ok (cfs, sms, (sts', false)) /\ sts' = (EndTerm, cc) :: rest
    /\ starts_pattern (kind (side ++ (EndTerm, cc) :: rest)) = false
    /\ kind (side ++ (EndTerm, cc) :: rest) <> Or).
  { inversion Hside as [| s cfs' cts cms' cmts Hcf Hcm Hcbar]; subst.
    - do 2 eexists. split; [constructor|]. repeat split; discriminate.
    - cbn [length] in Hl'. rewrite app_length in Hl'.
      destruct (methods_ok _ _ Hcm n ((EndTerm, cc) :: rest)) as [bs [H1 H2]]; [lia | lia | reflexivity |].
      exists bs, ((EndTerm, cc) :: rest). split; [auto|]. cbn [app kind tl]. rewrite <- app_assoc.
      split; [|split; [reflexivity | split; [reflexivity | discriminate]]].
      rewrite (locals_ok _ _ _ Hcf).
      + cbn [bind]. rewrite H1. reflexivity.
      + intros E. destruct (methods_kind _ _ Hcm) as [-> | [K _]]; [discriminate|]. rewrite K. auto. }
  destruct Hside' as [sms [sts' [Hs1 [Hs2 [Hs3 [Hs4 Hs5]]]]]].
  destruct (methods_ok _ _ Hm n (side ++ (EndTerm, cc) :: rest)) as [bs [H1 H2]]; [lia | lia | auto |].
  exists {| c_name := name; c_super := sup; c_fields := fs; c_methods := bs;
            c_class_fields := cfs; c_class_methods := sms |}.
  split; [|cbn; auto 10].
  unfold class_definition. cbn [app ttext]. unfold expect at 1. cbn [kind tl]. rewrite sym_eqb_refl. cbn [bind].
  unfold expect at 1. cbn [kind tl]. rewrite sym_eqb_refl. cbn [bind].
  assert (Hsup' : match kind ((sts ++ (NewTerm, o) :: fts ++ mts ++ side ++ [(EndTerm, cc)]) ++ rest) with
     | Identifier => (Some (ttext ((sts ++ (NewTerm, o) :: fts ++ mts ++ side ++ [(EndTerm, cc)]) ++ rest)),
                      tl ((sts ++ (NewTerm, o) :: fts ++ mts ++ side ++ [(EndTerm, cc)]) ++ rest))
     | _ => (None, (sts ++ (NewTerm, o) :: fts ++ mts ++ side ++ [(EndTerm, cc)]) ++ rest)
     end = (sup, (NewTerm, o) :: fts ++ mts ++ side ++ (EndTerm, cc) :: rest)).
  { rewrite <- app_assoc. cbn [app]. rewrite <- !app_assoc. cbn [app].
    destruct Hsup as [[-> ->] | [s [-> ->]]]; reflexivity. }
  rewrite Hsup'. unfold expect at 1. cbn [kind tl]. rewrite sym_eqb_refl. cbn [bind].
  rewrite (locals_ok _ _ _ Hf).
  2:{ intros E. destruct (methods_kind _ _ Hm) as [-> | [K _]]; [exact Hs5|]. rewrite K. auto. }
  cbn [bind]. rewrite H1. cbn [bind]. rewrite Hs2. cbn [bind]. subst sts'.
  unfold expect. cbn [kind tl]. rewrite sym_eqb_refl. reflexivity.
Qed.
End ClassProof.

(** * Printing *)
Section ExprInd.
Variable P : expr -> Prop.
Hypothesis Hvar : forall n, P (Var n).
Hypothesis Hlit : forall l, P (Lit l).
Hypothesis Hsend : forall s r sel args, P r -> Forall P args -> P (Send s r sel args).
Hypothesis Hasgn : forall vs e, P e -> P (Asgn vs e).
Hypothesis Hblk : forall ps ls es ret, Forall P es -> (forall e, ret = Some e -> P e) -> P (Blk ps ls es ret).
Fixpoint expr_ind' (e : expr) : P e :=
  let list_ind_ := fix go (l : list expr) : Forall P l :=
    match l with [] => Forall_nil _ | x :: r => Forall_cons x (expr_ind' x) (go r) end in
  match e with
  | Var n => Hvar n
  | Lit l => Hlit l
  | Send s r sel args => Hsend s r sel args (expr_ind' r) (list_ind_ args)
  | Asgn vs e => Hasgn vs e (expr_ind' e)
  | Blk ps ls es ret =>
      Hblk ps ls es ret (list_ind_ es)
        (match ret as o return forall e, o = Some e -> P e with
         | Some e0 => fun e H => match H in _ = o return match o with Some x => P x | None => True end with
                                 | eq_refl => expr_ind' e0 end
         | None => fun e H => match H in _ = o return match o with Some x => P x | None => True end with
                              | eq_refl => I end
         end)
  end.
End ExprInd.

Section LitInd.
Variable P : lit -> Prop.
Hypothesis H1 : forall n d, P (LInt n d).
Hypothesis H2 : forall n d, P (LDbl n d).
Hypothesis H3 : forall t, P (LStr t).
Hypothesis H4 : forall t, P (LSym t).
Hypothesis H5 : forall ls, Forall P ls -> P (LArr ls).
Fixpoint lit_ind' (l : lit) : P l :=
  match l with
  | LInt n d => H1 n d
  | LDbl n d => H2 n d
  | LStr t => H3 t
  | LSym t => H4 t
  | LArr ls => H5 ls ((fix go (l : list lit) : Forall P l :=
      match l with [] => Forall_nil _ | x :: r => Forall_cons x (lit_ind' x) (go r) end) ls)
  end.
End LitInd.

Lemma show_lit_ok l : G_lit l (show_lit l).
Proof.
  induction l using lit_ind'; cbn.
  - destruct n; constructor.
  - destruct n; constructor.
  - constructor.
  - constructor. right. right. cbn. auto.
  - constructor. induction H; [constructor|]. cbn. constructor; auto.
Qed.

Lemma concat_parts s : concat (parts s) = s.
Proof.
  induction s as [|c r IH]; [reflexivity|]. cbn. destruct (Ascii.eqb c colon).
  - cbn. rewrite IH. reflexivity.
  - destruct (parts r) as [|p ps]; cbn in *; rewrite <- IH; reflexivity.
Qed.

Fixpoint show_args (as_ : list expr) (ps : list text) : tokens :=
  match as_, ps with
  | a :: as', p :: ps' => (Keyword, p) :: wrap 2 a (show a) ++ show_args as' ps'
  | _, _ => []
  end.

Section Show.
Variable oo : bool -> text -> bool -> tokens -> Prop.
Variable ao : bool -> list expr -> Prop.
Variable tok : text -> Prop.
Notation W := (writable oo ao tok).

Definition own (e : expr) (ts : tokens) : Prop :=
  match level_of e with
  | LPrimary => G_primary oo ao tok e false ts
  | LUnary => G_unary oo ao tok e false ts
  | LBinary => G_binary oo ao tok e false ts
  | LKeyword => G_eval oo ao tok e ts
  | LAssign => G_expr oo ao tok e ts
  end.
Lemma eval_of e s ts : G_binary oo ao tok e s ts -> G_eval oo ao tok e ts.
Proof. intros H. eapply K_binary. exact H. Qed.
Lemma own_expr e ts : own e ts -> G_expr oo ao tok e ts.
Proof.
  unfold own. destruct (level_of e); intros H; auto.
  - apply E_eval, (eval_of e false), B_unary, U_primary, H.
  - apply E_eval, (eval_of e false), B_unary, H.
  - apply E_eval, (eval_of e false), H.
  - apply E_eval, H.
Qed.
Lemma paren_ok e ts : own e ts -> G_primary oo ao tok e false (paren ts).
Proof. intros H. apply P_paren, own_expr, H. Qed.
Lemma wrap_unary e ts : own e ts -> G_unary oo ao tok e false (wrap 1 e ts).
Proof.
  intros H. unfold wrap. destruct (Nat.leb (rank (level_of e)) 1) eqn:R.
  - unfold own in H. destruct (level_of e); try discriminate R; auto. apply U_primary, H.
  - apply U_primary, paren_ok, H.
Qed.
Lemma wrap_binary e ts : own e ts -> G_binary oo ao tok e false (wrap 2 e ts).
Proof.
  intros H. unfold wrap. destruct (Nat.leb (rank (level_of e)) 2) eqn:R.
  - unfold own in H. destruct (level_of e); try discriminate R; auto. apply B_unary, U_primary, H.
    apply B_unary, H.
  - apply B_unary, U_primary, paren_ok, H.
Qed.
Lemma wrap_eval e ts : own e ts -> G_eval oo ao tok e (wrap 3 e ts).
Proof.
  intros H. unfold wrap. destruct (Nat.leb (rank (level_of e)) 3) eqn:R.
  - unfold own in H. destruct (level_of e); try discriminate R; auto.
    + apply (eval_of e false), B_unary, U_primary, H.
    + apply (eval_of e false), B_unary, H.
    + apply (eval_of e false), H.
  - apply (eval_of e false), B_unary, U_primary, paren_ok, H.
Qed.

Lemma show_args_ok as_ : Forall (fun a => own a (show a)) as_ -> forall ps, length ps = length as_ ->
  G_args oo ao tok (concat ps) as_ (show_args as_ ps).
Proof.
  induction 1; intros ps L; destruct ps as [|p ps]; try discriminate L; cbn.
  - constructor.
  - apply A_cons with (s := false); [apply wrap_binary; auto | apply IHForall; cbn in L; lia].
Qed.

Lemma names_show ls : G_names ls (map ident ls).
Proof. induction ls; cbn; constructor; auto. left. reflexivity. Qed.
Lemma colons_show ps : G_colons ps (flat_map (fun p => [(Colon, str ":"); ident p]) ps).
Proof. induction ps; cbn; constructor; auto. left. reflexivity. Qed.
Lemma targets_show vs : vs <> [] -> Forall tok vs ->
  G_targets tok vs (flat_map (fun v => [ident v; (Assign, str ":=")]) vs).
Proof.
  intros N F. induction F; [contradiction|]. destruct l.
  - cbn. constructor; auto. left. reflexivity.
  - cbn [flat_map app]. apply T_more; auto. left. reflexivity. apply IHF. discriminate.
Qed.

Lemma show_send s r sel args : show (Send s r sel args) =
  (let receiver n := if s then [ident t_super] else wrap n r (show r) in
   match level_of (Send s r sel args) with
   | LUnary => receiver 1 ++ [ident sel]
   | LBinary => receiver 2 ++ (OperatorSequence, sel) :: flat_map (fun a => wrap 1 a (show a)) args
   | _ => receiver 2 ++ show_args args (parts sel)
   end).
Proof.
  cbn. destruct args as [|a [|b args]]; try reflexivity.
  destruct (ends_with_colon sel); reflexivity.
Qed.

Lemma show_own e : W e -> own e (show e).
Proof.
  induction e using expr_ind'; intros HW; inversion HW; subst.
  - cbn. constructor; auto. left. reflexivity.
  - cbn. constructor. apply show_lit_ok.
  - assert (R1 : G_unary oo ao tok e s (if s then [ident t_super] else wrap 1 e (show e))).
    { destruct s; [|apply wrap_unary; auto]. rewrite H7 by reflexivity. apply U_primary. constructor. left. reflexivity. }
    assert (R2 : G_binary oo ao tok e s (if s then [ident t_super] else wrap 2 e (show e))).
    { destruct s; [|apply wrap_binary; auto]. rewrite H7 by reflexivity. apply B_unary, U_primary. constructor. left. reflexivity. }
    assert (FA : Forall (fun a => own a (show a)) args).
    { clear - H H5. induction H; inversion H5; subst; constructor; auto. }
    assert (KW : level_of (Send s e sel args) = LKeyword -> length (parts sel) = length args).
    { intros L. destruct args as [|a [|b args]]; try discriminate L; [|exact H6].
      cbn in L. destruct (ends_with_colon sel) eqn:EC; [|discriminate L]. apply H6. exact EC. }
    rewrite show_send. unfold own. destruct (level_of (Send s e sel args)) eqn:L; cbv zeta.
    + exfalso. clear - L. destruct args as [|a [|b args]]; try discriminate L. cbn in L.
      destruct (ends_with_colon sel); discriminate.
    + assert (args = []).
      { clear - L. destruct args as [|a [|b args]]; auto; try discriminate L. cbn in L.
        destruct (ends_with_colon sel); discriminate. }
      subst args. apply U_send; auto. left. reflexivity.
    + assert (exists a, args = [a] /\ ends_with_colon sel = false).
      { clear - L. destruct args as [|a [|b args]]; try discriminate L. cbn in L. exists a. split; auto.
        destruct (ends_with_colon sel); [discriminate | auto]. }
      destruct H0 as [a [-> EC]]. cbn [flat_map]. rewrite app_nil_r.
      apply B_send with (s' := false); auto.
      * cbn. tauto.
      * inversion FA; subst. apply wrap_unary; auto.
    + rewrite <- (concat_parts sel) at 1. apply K_send; auto.
      * apply show_args_ok; auto.
      * intros ->. discriminate L.
    + exfalso. clear - L. destruct args as [|a [|b args]]; try discriminate L. cbn in L.
      destruct (ends_with_colon sel); discriminate.
  - unfold own. cbn [level_of]. cbn [show]. apply E_assign; [apply targets_show; auto | apply wrap_eval; auto].
  - unfold own. cbn [level_of]. cbn [show].
    set (pts := match ps with [] => [] | _ => _ end). set (lts := match ls with [] => [] | _ => _ end).
    replace (flat_map (fun e => show e ++ [(Period, str ".")]) es ++
             match ret with Some e => (Exit, str "^") :: show e | None => [] end ++ [(EndBlock, str "]")])
      with ((flat_map (fun e => show e ++ [(Period, str ".")]) es ++
             match ret with Some e => (Exit, str "^") :: show e | None => [] end) ++ [(EndBlock, str "]")])
      by (symmetry; apply app_assoc).
    apply P_block.
    + subst pts. destruct ps; constructor; [discriminate | apply colons_show].
    + subst lts. destruct ls; [constructor | apply D_some, names_show].
    + clear pts lts. assert (FE : Forall (fun e => own e (show e)) es).
      { clear - H H3. induction H; inversion H3; subst; constructor; auto. }
      clear H H3 HW. induction FE; cbn [flat_map app].
      * destruct ret as [e|]; [|constructor]. rewrite <- (app_nil_r (show e)).
        apply S_return; auto. apply own_expr. auto.
      * rewrite <- !app_assoc. cbn [app]. apply S_more; [apply own_expr; auto|]. apply IHFE.
Qed.

Lemma show_ok e : W e -> G_expr oo ao tok e (show e).
Proof. intros H. apply own_expr, show_own, H. Qed.
End Show.
