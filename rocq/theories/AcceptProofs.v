(** Proofs about which sources the parsers accept. *)
From Coq Require Import ZArith Bool String Ascii List Lia.
From Verif Require Import Base TxtModel LexModel ParseModel ParseSpec ParseProofs AcceptSpec.
Import ListNotations.
Open Scope nat_scope.
Open Scope list_scope.

(** * Answers *)
(** An answer with [Q], or a syntax error. *)
Definition wp {A} (r : res A) (Q : A -> Prop) : Prop :=
  match r with Ok x => Q x | Err e => e = PyException end.
Lemma wp_bind {A B} (r : res A) (k : A -> res B) Q R :
  wp r Q -> (forall x, Q x -> wp (k x) R) -> wp (bind r k) R.
Proof. destruct r; cbn; auto. Qed.
Lemma wp_weaken {A} (r : res A) (Q R : A -> Prop) : wp r Q -> (forall x, Q x -> R x) -> wp r R.
Proof. destruct r; cbn; auto. Qed.

Lemma kind_cons k ts : kind ts = k -> k <> NONE -> exists t r, ts = (k, t) :: r.
Proof. destruct ts as [|[k' t] r]; cbn; [congruence|]. intros -> _. eauto. Qed.
Lemma ident_cons ts : is_ident (kind ts) = true -> exists k t r, ts = (k, t) :: r /\ name_token k.
Proof.
  destruct ts as [|[k t] r]; cbn; [discriminate|]. intros H. exists k, t, r. split; auto. now apply name_ident.
Qed.
Lemma op_cons ts : is_op (kind ts) = true -> exists k t r, ts = (k, t) :: r /\ operator_token k.
Proof.
  destruct ts as [|[k t] r]; cbn; [discriminate|]. intros H. exists k, t, r. split; auto. now apply operator_op.
Qed.

Lemma expect_wp s ts : s <> NONE -> wp (expect s ts) (fun r => exists t, ts = (s, t) :: r).
Proof.
  intros Hs. unfold expect. destruct (sym_eqb (kind ts) s) eqn:E; [|reflexivity].
  apply sym_eqb_spec in E. destruct (kind_cons _ _ E Hs) as [t [r ->]]. cbn. eauto.
Qed.
Lemma identifier_wp ts : wp (identifier ts)
  (fun '(x, r) => exists k, name_token k /\ ts = (k, x) :: r).
Proof.
  unfold identifier. destruct (is_ident (kind ts)) eqn:E; [|reflexivity].
  destruct (ident_cons _ E) as [k [t [r [-> H]]]]. cbn. eauto.
Qed.
Lemma binary_selector_wp ts : wp (binary_selector ts)
  (fun '(x, r) => exists k, operator_token k /\ ts = (k, x) :: r).
Proof.
  unfold binary_selector. destruct (is_op (kind ts)) eqn:E; [|reflexivity].
  destruct (op_cons _ E) as [k [t [r [-> H]]]]. exists k. split; [exact H | reflexivity].
Qed.
Lemma keyword_wp ts : wp (keyword ts) (fun '(x, r) => ts = (Keyword, x) :: r).
Proof.
  unfold keyword. eapply wp_bind; [apply expect_wp; discriminate|]. intros r [t ->]. reflexivity.
Qed.
Lemma literal_symbol_wp p ts : wp (literal_symbol ts)
  (fun '(l, r) => exists pre, (Pound, p) :: ts = pre ++ r /\ G_lit l pre).
Proof.
  unfold literal_symbol, selector, binary_selector, identifier.
  destruct ts as [|[k t] r]; [reflexivity|].
  cbn [kind ttext tl].
  assert (H : name_token k \/ operator_token k \/ In k [Keyword; KeywordSequence; STString] ->
    exists pre, (Pound, p) :: (k, t) :: r = pre ++ r /\ G_lit (LSym t) pre).
  { intros H. exists [(Pound, p); (k, t)]. split; [reflexivity|]. constructor. exact H. }
  destruct k; cbn; try reflexivity; apply H; rewrite name_ident, operator_op; cbn; tauto.
Qed.
Lemma literal_decimal_wp neg ts : wp (literal_decimal neg ts)
  (fun '(l, r) => exists k t, ts = (k, t) :: r /\
     (k = Integer /\ l = LInt neg t \/ k = Double /\ l = LDbl neg t)).
Proof.
  unfold literal_decimal. destruct ts as [|[k t] r]; [reflexivity|]. cbn [kind ttext tl].
  destruct k; cbn; try reflexivity; do 2 eexists; split; try reflexivity; auto.
Qed.

Lemma literal_wp : forall n,
  (forall ts, length ts < n -> wp (literal n ts)
     (fun '(l, r) => exists pre, ts = pre ++ r /\ G_lit l pre)) /\
  (forall ts, length ts + 1 < n -> wp (literals n ts)
     (fun '(ls, r) => exists pre c, ts = pre ++ (EndTerm, c) :: r /\ G_lits ls pre)).
Proof.
  induction n as [|n [IH1 IH2]]; [split; intros; lia|].
  assert (A : forall ts, length ts < S n -> wp (literal (S n) ts)
     (fun '(l, r) => exists pre, ts = pre ++ r /\ G_lit l pre)).
  { intros ts Hl. destruct ts as [|[k t] r]; [reflexivity|]. cbn [length] in Hl.
    cbn [literal kind tl ttext].
    assert (D : wp (literal_decimal false ((k, t) :: r))
      (fun '(l, r0) => exists pre, (k, t) :: r = pre ++ r0 /\ G_lit l pre)).
    { eapply wp_weaken; [apply literal_decimal_wp|]. intros [l r0] [k' [t' [E K]]].
      exists [(k', t')]. split; [exact E|]. destruct K as [[-> ->] | [-> ->]]; constructor. }
    destruct k; try exact D.
    - eapply wp_weaken; [apply literal_decimal_wp|]. intros [l r0] [k' [t' [E K]]].
      exists [(Minus, t); (k', t')]. subst r. split; [reflexivity|].
      destruct K as [[-> ->] | [-> ->]]; constructor.
    - destruct (sym_eqb (kind r) NewTerm) eqn:E.
      + apply sym_eqb_spec in E. destruct (kind_cons _ _ E ltac:(discriminate)) as [o [r1 ->]].
        cbn [tl]. cbn [length] in Hl. eapply wp_bind; [apply IH2; lia|].
        intros [ls r2] [pre [c [-> G]]]. exists ((Pound, t) :: (NewTerm, o) :: pre ++ [(EndTerm, c)]).
        split; [cbn; rewrite <- app_assoc; reflexivity|]. constructor. exact G.
      + apply literal_symbol_wp.
    - cbn. exists [(STString, t)]. split; [reflexivity | constructor]. }
  split; [exact A|]. intros ts Hl. cbn [literals].
  assert (B : wp (r <- literal n ts ;; let '(l, ts) := r in
             r <- literals n ts ;; let '(ls, ts) := r in Ok (l :: ls, ts))
     (fun '(ls, r) => exists pre c, ts = pre ++ (EndTerm, c) :: r /\ G_lits ls pre)).
  { eapply wp_bind; [apply IH1; lia|]. intros [l r1] [p1 [-> G1]].
    destruct (lit_starts _ _ G1) as [S1 _]. destruct (starts_kind p1 r1 S1) as [_ [_ L1]].
    rewrite app_length in Hl. eapply wp_bind; [apply IH2; lia|].
    intros [ls r2] [p2 [c [-> G2]]]. exists (p1 ++ p2), c.
    split; [rewrite <- app_assoc; reflexivity | constructor; auto]. }
  destruct (kind ts) eqn:K; try exact B.
  destruct (kind_cons _ _ K ltac:(discriminate)) as [c [r ->]].
  cbn. exists [], c. split; [reflexivity | constructor].
Qed.

Lemma b_literal_wp : forall n,
  (forall ts, length ts < n -> wp (b_literal n ts)
     (fun '(_, r) => exists l pre, ts = pre ++ r /\ G_lit l pre)) /\
  (forall i ts, length ts + 1 < n -> wp (b_literals n i ts)
     (fun '(_, _, r) => exists ls pre c, ts = pre ++ (EndTerm, c) :: r /\ G_lits ls pre)).
Proof.
  induction n as [|n [IH1 IH2]]; [split; intros; lia|].
  assert (A : forall ts, length ts < S n -> wp (b_literal (S n) ts)
     (fun '(_, r) => exists l pre, ts = pre ++ r /\ G_lit l pre)).
  { intros ts Hl. destruct ts as [|[k t] r]; [reflexivity|]. cbn [length] in Hl.
    cbn [b_literal kind tl ttext].
    assert (D : wp (r <- literal_decimal false ((k, t) :: r) ;; let '(l, ts) := r in Ok ([PushConst l], ts))
      (fun '(_, r0) => exists l pre, (k, t) :: r = pre ++ r0 /\ G_lit l pre)).
    { eapply wp_bind; [apply literal_decimal_wp|]. intros [l r0] [k' [t' [E K]]].
      exists l, [(k', t')]. split; [exact E|]. destruct K as [[-> ->] | [-> ->]]; constructor. }
    destruct k; try exact D.
    - eapply wp_bind; [apply literal_decimal_wp|]. intros [l r0] [k' [t' [E K]]].
      exists l, [(Minus, t); (k', t')]. subst r. split; [reflexivity|].
      destruct K as [[-> ->] | [-> ->]]; constructor.
    - destruct (sym_eqb (kind r) NewTerm) eqn:E.
      + apply sym_eqb_spec in E. destruct (kind_cons _ _ E ltac:(discriminate)) as [o [r1 ->]].
        cbn [tl]. cbn [length] in Hl. eapply wp_bind; [apply IH2; lia|].
        intros [[c0 i] r2] [ls [pre [c [-> G]]]].
        exists (LArr ls), ((Pound, t) :: (NewTerm, o) :: pre ++ [(EndTerm, c)]).
        split; [cbn; rewrite <- app_assoc; reflexivity|]. constructor. exact G.
      + eapply wp_bind; [apply (literal_symbol_wp t)|]. intros [l r0] [pre [E1 G]]. exists l, pre. auto.
    - cbn. exists (LStr t), [(STString, t)]. split; [reflexivity | constructor]. }
  split; [exact A|]. intros i ts Hl. cbn [b_literals].
  assert (B : wp (r <- b_literal n ts ;; let '(c, ts) := r in
             r <- b_literals n (S i) ts ;; let '(c', i', ts) := r in
             Ok (PushIndex i :: c ++ [SendMsg false t_at_put] ++ c', i', ts))
     (fun '(_, _, r) => exists ls pre c, ts = pre ++ (EndTerm, c) :: r /\ G_lits ls pre)).
  { eapply wp_bind; [apply IH1; lia|]. intros [c0 r1] [l [p1 [-> G1]]].
    destruct (lit_starts _ _ G1) as [S1 _]. destruct (starts_kind p1 r1 S1) as [_ [_ L1]].
    rewrite app_length in Hl. eapply wp_bind; [apply IH2; lia|].
    intros [[c1 j] r2] [ls [p2 [c [-> G2]]]]. exists (l :: ls), (p1 ++ p2), c.
    split; [rewrite <- app_assoc; reflexivity | constructor; auto]. }
  destruct (kind ts) eqn:K; try exact B.
  destruct (kind_cons _ _ K ltac:(discriminate)) as [c [r ->]].
  cbn. exists [], [], c. split; [reflexivity | constructor].
Qed.

(** * Declarations *)
Lemma names_sound ts : forall xs r, names ts = (xs, r) -> exists pre, ts = pre ++ r /\ G_names xs pre.
Proof.
  induction ts as [|[k t] ts IH]; cbn; intros xs r H.
  - injection H as <- <-. exists []. split; [reflexivity | constructor].
  - destruct (is_ident k) eqn:E.
    + destruct (names ts) as [ys q]. injection H as <- <-. destruct (IH _ _ eq_refl) as [pre [-> G]].
      exists ((k, t) :: pre). split; [reflexivity|]. constructor; auto. now apply name_ident.
    + injection H as <- <-. exists []. split; [reflexivity | constructor].
Qed.
Lemma block_locals_wp ts : wp (block_locals ts)
  (fun '(xs, r) => exists pre, ts = pre ++ r /\ G_locals xs pre /\ (pre = [] -> kind r <> Or)).
Proof.
  unfold block_locals.
  assert (N : kind ts <> Or -> wp (Ok ([], ts)) (fun '(xs, r) => exists pre, ts = pre ++ r /\ G_locals xs pre
    /\ (pre = [] -> kind r <> Or))).
  { intros K. cbn. exists []. split; [reflexivity|]. split; [constructor | auto]. }
  destruct (kind ts) eqn:K; try (apply N; discriminate).
  destruct (kind_cons _ _ K ltac:(discriminate)) as [a [r ->]]. cbn [tl].
  destruct (names r) as [xs q] eqn:E. destruct (names_sound _ _ _ E) as [pre [-> G]].
  eapply wp_bind; [apply expect_wp; discriminate|]. intros r2 [b ->].
  exists ((Or, a) :: pre ++ [(Or, b)]). split; [cbn; rewrite <- app_assoc; reflexivity|].
  split; [constructor; auto | discriminate].
Qed.
Lemma block_arguments_wp : forall m ts, length ts <= m -> wp (block_arguments ts)
  (fun '(xs, r) => exists pre, ts = pre ++ r /\ G_colons xs pre /\ kind r <> Colon).
Proof.
  induction m as [|m IH]; intros ts Hl.
  - destruct ts; [|cbn in Hl; lia]. cbn. exists []. repeat split; try constructor. discriminate.
  - assert (N : kind ts <> Colon -> wp (Ok (@nil text, ts))
      (fun '(xs, r) => exists pre, ts = pre ++ r /\ G_colons xs pre /\ kind r <> Colon)).
    { intros K. cbn. exists []. repeat split; try constructor. exact K. }
    destruct ts as [|[k c] ts]; [apply N; discriminate|]. destruct k; try (apply N; discriminate).
    cbn [block_arguments]. destruct ts as [|[k x] ts]; [reflexivity|].
    destruct (is_ident k) eqn:E; [|reflexivity]. cbn [length] in Hl.
    eapply wp_bind; [apply IH; lia|]. intros [xs r] [pre [-> [G K]]].
    exists ((Colon, c) :: (k, x) :: pre). split; [reflexivity|]. split; [|exact K].
    constructor; auto. now apply name_ident.
Qed.
Lemma signature_wp ts : wp (nested_block_signature ts)
  (fun '(xs, r) => exists o pre, ts = (NewBlock, o) :: pre ++ r /\ G_params xs pre).
Proof.
  unfold nested_block_signature. eapply wp_bind; [apply expect_wp; discriminate|].
  intros r [o ->].
  assert (N : wp (Ok (@nil text, r)) (fun '(xs, r0) =>
    exists o0 pre, (NewBlock, o) :: r = (NewBlock, o0) :: pre ++ r0 /\ G_params xs pre)).
  { cbn. exists o, []. split; [reflexivity | constructor]. }
  destruct (kind r) eqn:K; try exact N.
  destruct (kind_cons _ _ K ltac:(discriminate)) as [c [q ->]].
  eapply wp_bind; [apply (block_arguments_wp _ _ (Nat.le_refl _))|].
  intros [xs r2] [pre [E [G K2]]]. rewrite E. eapply wp_bind; [apply expect_wp; discriminate|].
  intros r3 [b ->]. exists o, (pre ++ [(Or, b)]). split; [rewrite <- app_assoc; reflexivity|].
  constructor; auto. intros ->. inversion G; subst. discriminate E.
Qed.
Lemma keyword_pattern_wp : forall m ts, length ts <= m -> wp (keyword_pattern ts)
  (fun '(sel, xs, r) => exists pre, ts = pre ++ r /\ G_key_params sel xs pre /\ kind r <> Keyword).
Proof.
  induction m as [|m IH]; intros ts Hl.
  - destruct ts; [|cbn in Hl; lia]. cbn. exists []. repeat split; try constructor. discriminate.
  - assert (N : kind ts <> Keyword -> wp (Ok (@nil ascii, @nil text, ts))
      (fun '(sel, xs, r) => exists pre, ts = pre ++ r /\ G_key_params sel xs pre /\ kind r <> Keyword)).
    { intros K. cbn. exists []. repeat split; try constructor. exact K. }
    destruct ts as [|[k c] ts]; [apply N; discriminate|]. destruct k; try (apply N; discriminate).
    cbn [keyword_pattern]. destruct ts as [|[k x] ts]; [reflexivity|].
    destruct (is_ident k) eqn:E; [|reflexivity]. cbn [length] in Hl.
    eapply wp_bind; [apply IH; lia|]. intros [[sel xs] r] [pre [-> [G K]]].
    exists ((Keyword, c) :: (k, x) :: pre). split; [reflexivity|]. split; [|exact K].
    constructor; auto. now apply name_ident.
Qed.
Lemma pattern_wp ts : wp (pattern ts)
  (fun '(sel, xs, r) => exists pre, ts = pre ++ r /\ G_pattern sel xs pre).
Proof.
  unfold pattern. destruct (is_ident (kind ts)) eqn:E.
  - destruct (ident_cons _ E) as [k [t [r [-> H]]]]. cbn. exists [(k, t)]. split; [reflexivity|]. constructor; auto.
  - assert (N : wp (r <- binary_selector ts ;; let '(s, ts) := r in
              r <- identifier ts ;; let '(x, ts) := r in Ok (s, [x], ts))
        (fun '(sel, xs, r) => exists pre, ts = pre ++ r /\ G_pattern sel xs pre)).
    { eapply wp_bind; [apply binary_selector_wp|]. intros [s r] [k [Hk ->]].
      eapply wp_bind; [apply identifier_wp|]. intros [x r2] [k' [Hk' ->]].
      exists [(k, s); (k', x)]. split; [reflexivity|]. constructor; auto. }
    destruct (kind ts) eqn:K; try exact N.
    destruct (kind_cons _ _ K ltac:(discriminate)) as [c [q ->]].
    eapply wp_weaken; [apply (keyword_pattern_wp _ _ (Nat.le_refl _))|].
    intros [[sel xs] r] [pre [E1 [G K2]]]. exists pre. split; [exact E1|]. apply M_keyword; auto.
    intros ->. inversion G; subst. apply K2. cbn in E1. subst r. exact K.
Qed.

(** * Shapes *)
Scheme Wp_mut := Minimality for W_primary Sort Prop
with Wu_mut := Minimality for W_operand Sort Prop
with Wo_mut := Minimality for W_operators Sort Prop
with Wb_mut := Minimality for W_part Sort Prop
with Wk_mut := Minimality for W_keys Sort Prop
with We_mut := Minimality for W_expr Sort Prop
with Ws_mut := Minimality for W_body Sort Prop.
Combined Scheme W_all from Wp_mut, Wu_mut, Wo_mut, Wb_mut, Wk_mut, We_mut, Ws_mut.

Section Shape.
Variable nx : tokens -> Prop.
Variable oo : bool -> text -> tokens -> Prop.
Variable tok : text -> Prop.
Lemma w_shape :
  (forall s ts, W_primary nx oo tok s ts -> starts ts /\ second ts) /\
  (forall s ts, W_operand nx oo tok s ts -> starts ts /\ second ts) /\
  (forall s ts, W_operators nx oo tok s ts -> ts = [] \/ is_op (kind ts) = true) /\
  (forall ts, W_part nx oo tok ts -> starts ts /\ second ts) /\
  (forall ts, W_keys nx oo tok ts -> ts = [] \/ kind ts = Keyword) /\
  (forall ts, W_expr nx oo tok ts -> starts ts) /\
  (forall ts, W_body nx oo tok ts -> ts = [] \/ starts ts \/ kind ts = Exit).
Proof.
  apply (W_all nx oo tok); intros; cbn [kind]; auto.
  - split; [apply starts_cons, name_starter; auto | exact I].
  - split; [apply starts_cons; cbn; auto 10|]. destruct H0 as [k [t [r [-> Hs]]]].
    cbn. apply starter_not_assign, Hs.
  - split; [apply starts_cons; cbn; auto 10|].
    destruct H; cbn [app].
    + destruct H0; cbn [app second].
      * destruct H2 as [-> | [[k [t [r [-> Hs]]]] | Hs]]; cbn.
        -- discriminate.
        -- apply starter_not_assign, Hs.
        -- destruct ts as [|[k t] r]; cbn in *; [discriminate|]. rewrite Hs. discriminate.
      * discriminate.
    + destruct H3; [contradiction|]. cbn. discriminate.
  - destruct (lit_starts _ _ H) as [A [B _]]. auto.
  - destruct H0 as [A B]. split; [apply starts_app; auto|]. apply second_app; auto.
    intros k' t' E'. cbn in E'. injection E' as <- <-. apply name_not_assign; auto.
  - right. now apply operator_op.
  - destruct H0 as [A B]. split; [apply starts_app; auto|]. apply second_app; auto.
    intros k' t' E'. destruct H2 as [-> | K]; [discriminate|]. rewrite E' in K. cbn in K.
    intros ->. discriminate.
  - apply starts_app, H0.
  - apply starts_cons, name_starter. auto.
  - right. left. apply starts_app, H0.
  - right. left. apply starts_app, H0.
Qed.
Lemma part_starts ts : W_part nx oo tok ts -> starts ts /\ second ts.
Proof. apply w_shape. Qed.
Lemma expr_starts ts : W_expr nx oo tok ts -> starts ts.
Proof. apply w_shape. Qed.
Lemma expr_length ts : W_expr nx oo tok ts -> 1 <= length ts.
Proof. intros H. apply expr_starts in H. destruct (starts_kind ts [] H) as [_ [_ L]]. exact L. Qed.
Lemma operand_length s ts : W_operand nx oo tok s ts -> 1 <= length ts.
Proof.
  intros H. apply w_shape in H. destruct H as [H _]. destruct (starts_kind ts [] H) as [_ [_ L]]. exact L.
Qed.
Lemma part_length ts : W_part nx oo tok ts -> 1 <= length ts.
Proof. intros H. apply part_starts in H. destruct H as [H _]. destruct (starts_kind ts [] H) as [_ [_ L]]. exact L. Qed.

Lemma operand_names us : Forall (fun t => name_token (fst t)) us -> forall s ts, W_operand nx oo tok s ts ->
  exists s', W_operand nx oo tok s' (ts ++ us) /\ s' = (match us with [] => s | _ => false end).
Proof.
  induction 1 as [|[k x] us Hk Hus IH]; intros s ts H.
  - exists s. rewrite app_nil_r. auto.
  - destruct (IH false (ts ++ [(k, x)])) as [s' [A B]]; [eapply WU_send; eauto|].
    exists false. split; [|reflexivity]. rewrite <- app_assoc in A. cbn [app] in A.
    destruct us; subst s'; exact A.
Qed.
End Shape.

(** * Soundness and termination of the AST parser *)
Definition fresh (r : tokens) : Prop :=
  is_ident (kind r) = false /\ is_op (kind r) = false /\ kind r <> Keyword.

Lemma unary_loop_sound ts : forall e f e' r f', a_unary_loop e ts f = (e', (r, f')) ->
  exists us, ts = us ++ r /\ Forall (fun t => name_token (fst t)) us /\ is_ident (kind r) = false.
Proof.
  induction ts as [|[k t] ts IH]; cbn; intros e f e' r f' H.
  - injection H as <- <- <-. exists []. repeat split. constructor.
  - destruct (is_ident k) eqn:E.
    + destruct (IH _ _ _ _ _ H) as [us [-> [A B]]]. exists ((k, t) :: us). repeat split; auto.
      constructor; auto. now apply name_ident.
    + injection H as <- <- <-. exists []. repeat split; auto.
Qed.

Section AstSound.
Notation W_primary := (W_primary fresh_start every_operand assignable).
Notation W_operand := (W_operand fresh_start every_operand assignable).
Notation W_operators := (W_operators fresh_start every_operand assignable).
Notation W_part := (W_part fresh_start every_operand assignable).
Notation W_keys := (W_keys fresh_start every_operand assignable).
Notation W_expr := (W_expr fresh_start every_operand assignable).
Notation W_body := (W_body fresh_start every_operand assignable).

Definition a_ok (E : pstate -> res (expr * pstate)) (m : nat) : Prop :=
  forall ts f, length ts < m -> wp (E (ts, f))
    (fun '(_, (r, _)) => exists pre, ts = pre ++ r /\ W_expr pre /\ fresh r).

Lemma accept_period ts : snd (accept Period ts) = ts /\ kind ts <> Period \/
  exists p, ts = (Period, p) :: snd (accept Period ts).
Proof.
  unfold accept. destruct (sym_eqb (kind ts) Period) eqn:E; cbn.
  - right. apply sym_eqb_spec in E. destruct (kind_cons _ _ E ltac:(discriminate)) as [t [r ->]]. exists t. reflexivity.
  - left. split; [reflexivity|]. intros K. rewrite K in E. discriminate.
Qed.

Section In.
Variable E : pstate -> res (expr * pstate).
Variable m n : nat.
Hypothesis HE : a_ok E m.
Hypothesis Hn : m < n.

Lemma a_body_wp : forall k ts f, length ts < m -> length ts < k ->
  wp (a_block_body E k (ts, f)) (fun '(_, _, (r, _)) => exists pre, ts = pre ++ r /\ W_body pre).
Proof.
  induction k as [|k IH]; intros ts f Hm Hk; [lia|]. cbn [a_block_body].
  assert (N : wp (r <- E (ts, f) ;; let '(e, (ts, f)) := r in
          r <- a_block_body E k (snd (accept Period ts), f) ;;
          let '(es, ret, st) := r in Ok (e :: es, ret, st))
      (fun '(_, _, (r, _)) => exists pre, ts = pre ++ r /\ W_body pre)).
  { eapply wp_bind; [apply HE; exact Hm|]. intros [e [r1 f1]] [p1 [-> [G1 F1]]].
    pose proof (expr_length _ _ _ _ G1) as L1. rewrite app_length in Hm, Hk.
    assert (L2 : length (snd (accept Period r1)) <= length r1).
    { unfold accept. destruct (sym_eqb (kind r1) Period); cbn; [destruct r1; cbn; lia | lia]. }
    eapply wp_bind; [apply IH; lia|]. intros [[es ret] [r2 f2]] [p2 [E2 G2]].
    destruct (accept_period r1) as [[A B] | [p A]].
    - rewrite A in E2. subst r1. destruct p2 as [|[k0 t0] p2].
      + exists p1. split; [reflexivity|]. apply WS_last, G1.
      + exists (p1 ++ (k0, t0) :: p2). split; [rewrite <- app_assoc; reflexivity|].
        apply WS_next; auto. unfold fresh_start. destruct F1 as [F1 [F2 F3]]. cbn [app kind] in F1, F2, F3 |- *.
        destruct (w_shape fresh_start every_operand assignable) as [_ [_ [_ [_ [_ [_ Sh]]]]]].
        destruct (Sh _ G2) as [X | [[k1 [t1 [q [X S1]]]] | X]]; [discriminate| |].
        * injection X as -> -> ->. cbn in S1. cbn.
          repeat (destruct S1 as [<- | S1]; [first [discriminate F1 | discriminate F2 | tauto]|]). destruct S1.
        * cbn in X. subst k0. cbn. tauto.
    - exists (p1 ++ (Period, p) :: p2). rewrite A, E2. split; [rewrite <- app_assoc; reflexivity|].
      apply WS_more; auto. }
  destruct (kind ts) eqn:K; try exact N.
  - cbn. exists []. split; [reflexivity | constructor].
  - destruct (kind_cons _ _ K ltac:(discriminate)) as [x [q ->]]. cbn [tl]. cbn [length] in Hm.
    eapply wp_bind; [apply HE; lia|]. intros [e [r1 f1]] [p1 [-> [G1 F1]]].
    destruct (accept_period r1) as [[A B] | [p A]].
    + exists ((Exit, x) :: p1 ++ []). rewrite A. split; [rewrite app_nil_r; reflexivity|].
      apply WS_return; auto.
    + exists ((Exit, x) :: p1 ++ [(Period, p)]). split; [rewrite A at 1; cbn; rewrite <- app_assoc; reflexivity|].
      apply WS_return; eauto.
  - cbn. exists []. split; [reflexivity | constructor].
Qed.

Lemma a_nested_block_wp ts f : length ts <= m -> wp (a_nested_block E n (ts, f))
  (fun '(_, (r, _)) => exists pre, ts = pre ++ r /\ W_primary false pre).
Proof.
  intros Hm. unfold a_nested_block.
  eapply wp_bind; [apply signature_wp|]. intros [ps r1] [o [p1 [-> G1]]].
  eapply wp_bind; [apply block_locals_wp|]. intros [ls r2] [p2 [-> [G2 _]]].
  cbn [length] in Hm. rewrite !app_length in Hm.
  eapply wp_bind; [apply a_body_wp; lia|]. intros [[es ret] [r3 f3]] [p3 [-> G3]].
  eapply wp_bind; [apply expect_wp; discriminate|]. intros r4 [c ->].
  exists ((NewBlock, o) :: p1 ++ p2 ++ p3 ++ [(EndBlock, c)]).
  split; [cbn; rewrite <- !app_assoc; reflexivity|]. eapply WP_block; eauto.
Qed.

Lemma a_primary_wp ts f : length ts <= m -> wp (a_primary E n (ts, f))
  (fun '(_, (r, _)) => exists s pre, ts = pre ++ r /\ W_primary s pre).
Proof.
  intros Hm. unfold a_primary. destruct (is_ident (kind ts)) eqn:I.
  - destruct (ident_cons _ I) as [k [t [r [-> H]]]]. cbn [ttext tl].
    destruct (text_eqb t t_super) eqn:T; cbn.
    + exists true, [(k, t)]. split; [reflexivity|]. constructor; auto. apply text_eqb_spec in T. tauto.
    + exists false, [(k, t)]. split; [reflexivity|]. constructor; auto. split; [discriminate|].
      intros ->. rewrite text_eqb_refl in T. discriminate.
  - assert (N : wp (r <- literal n ts ;; let '(l, ts) := r in Ok (Lit l, (ts, f)))
       (fun '(_, (r, _)) => exists s pre, ts = pre ++ r /\ W_primary s pre)).
    { eapply wp_bind; [apply (proj1 (literal_wp n)); lia|]. intros [l r] [pre [-> G]].
      exists false, pre. split; [reflexivity|]. eapply WP_lit; eauto. }
    destruct (kind ts) eqn:K; try exact N.
    + eapply wp_weaken; [apply a_nested_block_wp; exact Hm|]. intros [e [r f']] [pre [A B]]. eauto.
    + destruct (kind_cons _ _ K ltac:(discriminate)) as [o [q ->]]. cbn [tl]. cbn [length] in Hm.
      eapply wp_bind; [apply HE; lia|]. intros [e [r1 f1]] [p1 [-> [G1 F1]]].
      eapply wp_bind; [apply expect_wp; discriminate|]. intros r2 [c ->].
      exists false, ((NewTerm, o) :: p1 ++ [(EndTerm, c)]). split; [cbn; rewrite <- app_assoc; reflexivity|].
      constructor; auto.
Qed.

Lemma a_operand_wp ts f : length ts <= m -> wp (a_binary_operand E n (ts, f))
  (fun '(_, (r, _)) => exists s pre, ts = pre ++ r /\ W_operand s pre /\ is_ident (kind r) = false).
Proof.
  intros Hm. unfold a_binary_operand. eapply wp_bind; [apply a_primary_wp; exact Hm|].
  intros [e [r f1]] [s [pre [-> G]]]. cbn [wp].
  destruct (a_unary_loop e r f1) as [e2 [r2 f2]] eqn:U.
  destruct (unary_loop_sound _ _ _ _ _ _ U) as [us [-> [A B]]].
  destruct (operand_names fresh_start every_operand assignable us A s pre (WU_primary _ _ _ _ _ G)) as [s' [C _]].
  exists s', (pre ++ us). split; [rewrite <- app_assoc; reflexivity|]. auto.
Qed.

Lemma a_binary_loop_wp : forall k e ts f, length ts <= m -> length ts < k -> is_ident (kind ts) = false ->
  wp (a_binary_loop E n k e (ts, f))
  (fun '(_, (r, _)) => exists pre, ts = pre ++ r /\ (forall s, W_operators s pre)
     /\ is_ident (kind r) = false /\ is_op (kind r) = false).
Proof.
  induction k as [|k IH]; intros e ts f Hm Hk I; [lia|]. cbn [a_binary_loop fst].
  destruct (is_op (kind ts)) eqn:O.
  - unfold a_binary_message. destruct (op_cons _ O) as [ko [op [q [-> Ho]]]]. cbn [length] in Hm, Hk.
    unfold binary_selector. rewrite O. cbn [bind ttext tl].
    assert (X : wp (r <- (r <- a_binary_operand E n (q, false) ;; let '(a, st) := r in Ok (Send f e op [a], st)) ;;
                    let '(e, st) := r in a_binary_loop E n k e st)
      (fun '(_, (r, _)) => exists pre, (ko, op) :: q = pre ++ r /\ (forall s, W_operators s pre)
         /\ is_ident (kind r) = false /\ is_op (kind r) = false)); [|exact X].
    eapply wp_bind with (Q := fun '(_, (r, _)) => exists s pre,
      q = pre ++ r /\ W_operand s pre /\ is_ident (kind r) = false).
    { eapply wp_bind; [apply a_operand_wp; lia|]. intros [a [r1 f1]] P. exact P. }
    intros [a [r1 f1]] [s [p1 [-> [G1 I1]]]]. pose proof (operand_length _ _ _ _ _ G1) as L1.
    rewrite app_length in Hm, Hk. eapply wp_weaken; [apply IH; auto; lia|].
    intros [e2 [r2 f2]] [p2 [-> [G2 [I2 O2]]]]. exists ((ko, op) :: p1 ++ p2).
    split; [cbn; rewrite <- app_assoc; reflexivity|]. split; [|auto].
    intros s0. eapply WO_cons; eauto. exact Logic.I.
  - cbn. exists []. split; [reflexivity|]. split; [intros s; constructor | auto].
Qed.

Lemma a_part_wp ts f : length ts <= m ->
  wp (r <- a_binary_operand E n (ts, f) ;; let '(e, st) := r in a_binary_loop E n n e st)
  (fun '(_, (r, _)) => exists pre, ts = pre ++ r /\ W_part pre
     /\ is_ident (kind r) = false /\ is_op (kind r) = false).
Proof.
  intros Hm. eapply wp_bind; [apply a_operand_wp; exact Hm|].
  intros [e [r1 f1]] [s [p1 [-> [G1 I1]]]]. rewrite app_length in Hm.
  eapply wp_weaken; [apply a_binary_loop_wp; auto; lia|].
  intros [e2 [r2 f2]] [p2 [-> [G2 [I2 O2]]]]. exists (p1 ++ p2).
  split; [rewrite <- app_assoc; reflexivity|]. split; [|auto]. econstructor; eauto.
Qed.
Lemma a_formula_wp ts f : length ts <= m -> wp (a_formula E n (ts, f))
  (fun '(_, (r, _)) => exists pre, ts = pre ++ r /\ W_part pre
     /\ is_ident (kind r) = false /\ is_op (kind r) = false).
Proof.
  intros Hm. pose proof (a_part_wp ts f Hm) as H. unfold a_formula.
  destruct (a_binary_operand E n (ts, f)) as [[e st]|x]; [|exact H]. cbn [bind] in *.
  destruct (a_binary_loop E n n e st) as [[e2 [r2 f2]]|x]; exact H.
Qed.

Lemma a_keyword_loop_wp : forall k ts f, length ts <= m -> length ts < k ->
  is_ident (kind ts) = false -> is_op (kind ts) = false ->
  wp (a_keyword_loop E n k (ts, f)) (fun '(_, _, (r, _)) => exists pre, ts = pre ++ r /\ W_keys pre /\ fresh r).
Proof.
  induction k as [|k IH]; intros ts f Hm Hk I O; [lia|]. cbn [a_keyword_loop].
  assert (N : kind ts <> Keyword -> wp (Ok (@nil ascii, @nil expr, (ts, f)))
    (fun '(_, _, (r, _)) => exists pre, ts = pre ++ r /\ W_keys pre /\ fresh r)).
  { intros K. cbn. exists []. split; [reflexivity|]. split; [constructor|]. repeat split; auto. }
  destruct (kind ts) eqn:K; try (apply N; discriminate).
  eapply wp_bind; [apply keyword_wp|]. intros [s r1] ->. cbn [length] in Hm, Hk.
  eapply wp_bind; [apply a_formula_wp; lia|]. intros [a [r2 f2]] [p2 [-> [G2 [I2 O2]]]].
  pose proof (part_length _ _ _ _ G2) as L. rewrite app_length in Hm, Hk.
  eapply wp_bind; [apply IH; auto; lia|]. intros [[sel args] [r3 f3]] [p3 [-> [G3 F3]]].
  exists ((Keyword, s) :: p2 ++ p3). split; [cbn; rewrite <- app_assoc; reflexivity|].
  split; [constructor; auto | auto].
Qed.

Lemma a_evaluation_wp ts f : length ts <= m -> wp (a_evaluation E n (ts, f))
  (fun '(_, (r, _)) => exists pre, ts = pre ++ r /\ W_expr pre /\ fresh r).
Proof.
  intros Hm. rewrite evaluation_alt by lia. eapply wp_bind; [apply a_part_wp; exact Hm|].
  intros [e [r1 f1]] [p1 [-> [G1 [I1 O1]]]]. cbn [fst].
  assert (N : kind r1 <> Keyword -> exists pre, p1 ++ r1 = pre ++ r1 /\ W_expr pre /\ fresh r1).
  { intros K. exists (p1 ++ []). rewrite app_nil_r. split; [reflexivity|]. split; [|repeat split; auto].
    rewrite <- (app_nil_r p1). constructor; auto. constructor. }
  destruct (kind r1) eqn:K; try (cbn; apply N; discriminate).
  unfold a_keyword_message. cbn [snd]. rewrite app_length in Hm.
  pose proof (a_keyword_loop_wp n r1 f1 ltac:(lia) ltac:(lia)) as H. rewrite K in H.
  specialize (H eq_refl eq_refl).
  destruct (a_keyword_loop E n n (r1, f1)) as [[[sel args] [r2 f2]]|x]; [|exact H]. cbn in *.
  destruct H as [p2 [-> [G2 F2]]]. exists (p1 ++ p2). split; [rewrite <- app_assoc; reflexivity|].
  split; [constructor; auto | auto].
Qed.

Lemma a_assignments_wp : forall k ts f, length ts <= m -> length ts < k ->
  wp (a_assignments E n k (ts, f)) (fun '(_, _, (r, _)) => exists pre, ts = pre ++ r /\ W_expr pre /\ fresh r).
Proof.
  induction k as [|k IH]; intros ts f Hm Hk; [lia|]. cbn [a_assignments].
  eapply wp_bind; [apply identifier_wp|]. intros [v r1] [kk [Hkk ->]].
  eapply wp_bind; [apply expect_wp; discriminate|]. intros r2 [a ->]. cbn [length] in Hm, Hk.
  eapply wp_bind with (Q := fun '(_, _, (r, _)) => exists pre, r2 = pre ++ r /\ W_expr pre /\ fresh r).
  - destruct (sym_eqb (kind (tl r2)) Assign).
    + apply IH; lia.
    + eapply wp_bind; [apply a_evaluation_wp; lia|]. intros [e [r f']] H. exact H.
  - intros [[vs e] [r3 f3]] [pre [-> [G F]]].
    destruct (text_eqb v t_self) eqn:T1; [reflexivity|].
    destruct (text_eqb v t_super) eqn:T2; [reflexivity|]. cbn.
    exists ((kk, v) :: (Assign, a) :: pre). split; [reflexivity|]. split; [|exact F].
    constructor; auto. split; intros ->; rewrite text_eqb_refl in *; discriminate.
Qed.

Lemma a_expression_wp_ ts f : length ts <= m -> wp (a_expression_ E n (ts, f))
  (fun '(_, (r, _)) => exists pre, ts = pre ++ r /\ W_expr pre /\ fresh r).
Proof.
  intros Hm. unfold a_expression_. cbn [fst]. destruct (sym_eqb (kind (tl ts)) Assign).
  - eapply wp_bind; [apply a_assignments_wp; lia|]. intros [[vs e] [r f']] H. exact H.
  - apply a_evaluation_wp, Hm.
Qed.
End In.

Lemma a_expression_wp n : a_ok (a_expression n) (n - 1).
Proof.
  induction n as [|n IH]; intros ts f Hl; [lia|]. cbn [a_expression].
  apply (a_expression_wp_ _ (n - 1) n IH); lia.
Qed.

Lemma a_method_wp n ts f : length ts < n -> wp (a_method n (ts, f))
  (fun '(_, (r, _)) => exists pre, ts = pre ++ r /\ ast_method_source pre).
Proof.
  intros Hl. unfold a_method. eapply wp_bind; [apply pattern_wp|]. intros [[sel ps] r1] [p1 [-> G1]].
  eapply wp_bind; [apply expect_wp; discriminate|]. intros r2 [eq ->].
  destruct (pattern_kind _ _ _ G1) as [_ L1]. rewrite app_length in Hl. cbn [length] in Hl.
  assert (N : wp (ts <- expect NewTerm r2 ;;
      r <- block_locals ts ;; let '(ls, ts) := r in
      r <- a_block_body (a_expression n) n (ts, f) ;; let '(es, ret, (ts, f)) := r in
      ts <- expect EndTerm ts ;;
      Ok ({| m_selector := sel; m_params := ps; m_body := Some (ls, es, ret) |}, (ts, f)))
      (fun '(_, (r, _)) => exists pre, p1 ++ (Equal, eq) :: r2 = pre ++ r /\ ast_method_source pre)).
  { eapply wp_bind; [apply expect_wp; discriminate|]. intros r3 [o ->].
    eapply wp_bind; [apply block_locals_wp|]. intros [ls r4] [p4 [-> [G4 _]]].
    cbn [length] in Hl. rewrite app_length in Hl.
    eapply wp_bind; [apply (a_body_wp _ (n - 1) n (a_expression_wp n)); lia|].
    intros [[es ret] [r5 f5]] [p5 [-> G5]].
    eapply wp_bind; [apply expect_wp; discriminate|]. intros r6 [c ->].
    exists (p1 ++ (Equal, eq) :: (NewTerm, o) :: p4 ++ p5 ++ [(EndTerm, c)]).
    split; [rewrite <- !app_assoc; cbn; rewrite <- !app_assoc; reflexivity|]. econstructor; eauto. }
  destruct (kind r2) eqn:K; try exact N.
  destruct (kind_cons _ _ K ltac:(discriminate)) as [p [q ->]]. cbn.
  exists (p1 ++ [(Equal, eq); (Primitive, p)]). split; [rewrite <- app_assoc; reflexivity|]. econstructor; eauto.
Qed.
End AstSound.

(** * Soundness and termination of the bytecode parser *)
Lemma b_unary_loop_sound ts : forall f c r f', b_unary_loop ts f = (c, (r, f')) ->
  exists us, ts = us ++ r /\ Forall (fun t => name_token (fst t)) us /\
    f' = (match us with [] => f | _ => false end).
Proof.
  induction ts as [|[k t] ts IH]; cbn; intros f c r f' H.
  - injection H as <- <- <-. exists []. repeat split. constructor.
  - destruct (is_ident k) eqn:E.
    + destruct (b_unary_loop ts false) as [c2 [r2 f2]] eqn:U. injection H as <- <- <-.
      destruct (IH _ _ _ _ U) as [us [-> [A B]]]. exists ((k, t) :: us). repeat split; auto.
      * constructor; auto. now apply name_ident.
      * destruct us; auto.
    + injection H as <- <- <-. exists []. repeat split; auto.
Qed.

Section BcSound.
Notation W_primary := (W_primary never bare_one any_target).
Notation W_operand := (W_operand never bare_one any_target).
Notation W_operators := (W_operators never bare_one any_target).
Notation W_part := (W_part never bare_one any_target).
Notation W_keys := (W_keys never bare_one any_target).
Notation W_expr := (W_expr never bare_one any_target).
Notation W_body := (W_body never bare_one any_target).

Definition b_ok (E : pstate -> res (list ev * pstate)) (m : nat) : Prop :=
  forall ts, length ts < m -> wp (E (ts, false))
    (fun '(_, (r, f)) => exists pre, ts = pre ++ r /\ W_expr pre /\ f = false).

Lemma name_expr k t : name_token k -> t <> t_super -> W_expr [(k, t)].
Proof.
  intros Hk Ht. apply (WE_eval _ _ _ [(k, t)] []); [|constructor].
  apply (WB _ _ _ false [(k, t)] []); [|constructor]. apply WU_primary, WP_name; auto.
  split; [discriminate | contradiction].
Qed.
Lemma t_self_super : t_self <> t_super.
Proof. discriminate. Qed.

Lemma return_body x p1 r1 : W_expr p1 ->
  exists pre, (Exit, x) :: p1 ++ r1 = pre ++ snd (accept Period r1) /\ W_body pre.
Proof.
  intros G1. destruct (accept_period r1) as [[A B] | [p A]].
  - exists ((Exit, x) :: p1 ++ []). rewrite A. split; [rewrite app_nil_r; reflexivity|].
    apply WS_return; auto.
  - exists ((Exit, x) :: p1 ++ [(Period, p)]). split; [rewrite A at 1; cbn; rewrite <- app_assoc; reflexivity|].
    apply WS_return; eauto.
Qed.

Section In.
Variable E : pstate -> res (list ev * pstate).
Variable m n : nat.
Hypothesis HE : b_ok E m.
Hypothesis Hn : m < n.

Lemma b_result_wp blk code x ts : length ts < m -> wp (b_result E blk code (ts, false))
  (fun '(_, _, (r, f)) => exists pre, (Exit, x) :: ts = pre ++ r /\ W_body pre /\ f = false).
Proof.
  intros Hm. unfold b_result.
  assert (N : wp (r <- E (ts, false) ;; let '(c, (ts, f)) := r in
    Ok (code ++ c ++ [if blk then RetNonLocal else RetLocal], true, (snd (accept Period ts), f)))
    (fun '(_, _, (r, f)) => exists pre, (Exit, x) :: ts = pre ++ r /\ W_body pre /\ f = false)).
  { eapply wp_bind; [apply HE; exact Hm|]. intros [c [r1 f1]] [p1 [-> [G1 ->]]].
    destruct (return_body x p1 r1 G1) as [pre [A B]]. exists pre. auto. }
  destruct (negb blk && sym_eqb (kind ts) Identifier && text_eqb (ttext ts) t_self
     && (sym_eqb (kind (tl ts)) Period || sym_eqb (kind (tl ts)) EndTerm)) eqn:T; [|exact N].
  apply andb_true_iff in T. destruct T as [T _]. apply andb_true_iff in T. destruct T as [T T2].
  apply andb_true_iff in T. destruct T as [_ T1]. apply sym_eqb_spec in T1. apply text_eqb_spec in T2.
  destruct (kind_cons _ _ T1 ltac:(discriminate)) as [t [q ->]]. cbn [ttext] in T2. subst t. cbn [tl wp].
  destruct (return_body x [(Identifier, t_self)] q) as [pre [A B]].
  - apply name_expr; [left; reflexivity | exact t_self_super].
  - exists pre. auto.
Qed.

Lemma b_body_wp blk : forall k seen code ts, length ts < m -> length ts < k ->
  wp (b_block_body E k blk seen code (ts, false))
  (fun '(_, _, (r, f)) => exists pre, ts = pre ++ r /\ W_body pre /\ f = false).
Proof.
  induction k as [|k IH]; intros seen code ts Hm Hk; [lia|]. cbn [b_block_body].
  assert (N : wp (r <- E (ts, false) ;; let '(c, (ts, f)) := r in
          match accept Period ts with
          | (true, ts) => b_block_body E k blk true (code ++ c ++ [PopTop]) (ts, f)
          | (false, ts) => Ok (code ++ c, false, (ts, f))
          end)
      (fun '(_, _, (r, f)) => exists pre, ts = pre ++ r /\ W_body pre /\ f = false)).
  { eapply wp_bind; [apply HE; exact Hm|]. intros [c [r1 f1]] [p1 [-> [G1 ->]]].
    pose proof (expr_length _ _ _ _ G1) as L1. rewrite app_length in Hm, Hk.
    unfold accept. destruct (sym_eqb (kind r1) Period) eqn:K.
    - apply sym_eqb_spec in K. destruct (kind_cons _ _ K ltac:(discriminate)) as [p [q ->]]. cbn [tl].
      cbn [length] in Hm, Hk. eapply wp_weaken; [apply IH; lia|].
      intros [[c2 fin] [r2 f2]] [p2 [-> [G2 ->]]]. exists (p1 ++ (Period, p) :: p2).
      split; [rewrite <- app_assoc; reflexivity|]. split; [apply WS_more; auto | reflexivity].
    - cbn. exists p1. split; [reflexivity|]. split; [apply WS_last, G1 | reflexivity]. }
  destruct (kind ts) eqn:K; try exact N.
  - cbn. exists []. split; [reflexivity|]. split; [constructor | reflexivity].
  - destruct (kind_cons _ _ K ltac:(discriminate)) as [x [q ->]]. cbn [tl]. cbn [length] in Hm.
    apply b_result_wp. lia.
  - cbn. exists []. split; [reflexivity|]. split; [constructor | reflexivity].
Qed.

Lemma b_nested_block_wp ts : length ts <= m -> wp (b_nested_block E n (ts, false))
  (fun '(_, (r, f)) => exists pre, ts = pre ++ r /\ W_primary false pre /\ f = false).
Proof.
  intros Hm. unfold b_nested_block.
  eapply wp_bind; [apply signature_wp|]. intros [ps r1] [o [p1 [-> G1]]].
  eapply wp_bind; [apply block_locals_wp|]. intros [ls r2] [p2 [-> [G2 _]]].
  cbn [length] in Hm. rewrite !app_length in Hm.
  eapply wp_bind; [apply b_body_wp; lia|]. intros [[code fin] [r3 f3]] [p3 [-> [G3 ->]]].
  eapply wp_bind; [apply expect_wp; discriminate|]. intros r4 [c ->].
  exists ((NewBlock, o) :: p1 ++ p2 ++ p3 ++ [(EndBlock, c)]).
  split; [cbn; rewrite <- !app_assoc; reflexivity|]. split; [|reflexivity]. eapply WP_block; eauto.
Qed.

Lemma b_primary_wp ts : length ts <= m -> wp (b_primary E n (ts, false))
  (fun '(_, (r, f)) => exists pre, ts = pre ++ r /\ W_primary f pre).
Proof.
  intros Hm. unfold b_primary. destruct (is_ident (kind ts)) eqn:I.
  - destruct (ident_cons _ I) as [k [t [r [-> H]]]]. cbn [ttext tl].
    destruct (text_eqb t t_super) eqn:T; cbn.
    + exists [(k, t)]. split; [reflexivity|]. constructor; auto. apply text_eqb_spec in T. tauto.
    + exists [(k, t)]. split; [reflexivity|]. constructor; auto. split; [discriminate|].
      intros ->. rewrite text_eqb_refl in T. discriminate.
  - assert (N : wp (r <- b_literal n ts ;; let '(c, ts) := r in Ok (c, (ts, false)))
       (fun '(_, (r, f)) => exists pre, ts = pre ++ r /\ W_primary f pre)).
    { eapply wp_bind; [apply (proj1 (b_literal_wp n)); lia|]. intros [c r] [l [pre [-> G]]].
      exists pre. split; [reflexivity|]. eapply WP_lit; eauto. }
    destruct (kind ts) eqn:K; try exact N.
    + eapply wp_weaken; [apply b_nested_block_wp; exact Hm|]. intros [e [r f']] [pre [A [B ->]]]. eauto.
    + destruct (kind_cons _ _ K ltac:(discriminate)) as [o [q ->]]. cbn [tl]. cbn [length] in Hm.
      eapply wp_bind; [apply HE; lia|]. intros [e [r1 f1]] [p1 [-> [G1 ->]]].
      eapply wp_bind; [apply expect_wp; discriminate|]. intros r2 [c ->].
      exists ((NewTerm, o) :: p1 ++ [(EndTerm, c)]). split; [cbn; rewrite <- app_assoc; reflexivity|].
      constructor; auto.
Qed.

Lemma b_operand_wp ts : length ts <= m -> wp (b_binary_operand E n (ts, false))
  (fun '(_, (r, f)) => exists pre, ts = pre ++ r /\ W_operand f pre).
Proof.
  intros Hm. unfold b_binary_operand. eapply wp_bind; [apply b_primary_wp; exact Hm|].
  intros [e [r f1]] [pre [-> G]].
  destruct (b_unary_loop r f1) as [e2 [r2 f2]] eqn:U. cbn [wp].
  destruct (b_unary_loop_sound _ _ _ _ _ U) as [us [-> [A B]]].
  destruct (operand_names never bare_one any_target us A f1 pre (WU_primary _ _ _ _ _ G)) as [s' [C D]].
  exists (pre ++ us). split; [rewrite <- app_assoc; reflexivity|]. rewrite B, <- D. exact C.
Qed.

Lemma b_binary_message_wp ts f : length ts <= m -> is_op (kind ts) = true ->
  wp (b_binary_message E n (ts, f))
  (fun '(_, (r, f')) => exists k op pre, ts = (k, op) :: pre ++ r /\ operator_token k /\
     W_operand f' pre /\ bare_one f op pre).
Proof.
  intros Hm O. destruct (op_cons _ O) as [ko [op [q [-> Ho]]]]. cbn [length] in Hm.
  unfold b_binary_message, binary_selector. rewrite O. cbn [bind ttext tl].
  destruct ((text_eqb op t_plus || text_eqb op t_minus) && negb f
     && sym_eqb (kind q) Integer && text_eqb (ttext q) t_one) eqn:T.
  - apply andb_true_iff in T. destruct T as [T T2]. apply andb_true_iff in T. destruct T as [_ T1].
    apply sym_eqb_spec in T1. apply text_eqb_spec in T2.
    destruct (kind_cons _ _ T1 ltac:(discriminate)) as [t [q' ->]]. cbn [ttext] in T2. subst t. cbn [tl wp].
    exists ko, op, [(Integer, t_one)]. split; [reflexivity|]. split; [exact Ho|]. split.
    + apply WU_primary. eapply WP_lit. constructor.
    + intros _ _ r H. injection H as <-. reflexivity.
  - eapply wp_bind; [apply b_operand_wp; lia|]. intros [c [r1 f1]] [p1 [-> G1]].
    exists ko, op, p1. split; [reflexivity|]. split; [exact Ho|]. split; [exact G1|].
    intros -> Hop r ->. cbn [app kind ttext] in T. rewrite sym_eqb_refl, text_eqb_refl, !andb_true_r in T.
    destruct Hop as [-> | ->]; rewrite text_eqb_refl in T; rewrite ?orb_true_r in T; discriminate T.
Qed.

Lemma b_binary_loop_wp : forall k ts f, length ts <= m -> length ts < k ->
  wp (b_binary_loop E n k (ts, f)) (fun '(_, (r, _)) => exists pre, ts = pre ++ r /\ W_operators f pre).
Proof.
  induction k as [|k IH]; intros ts f Hm Hk; [lia|]. cbn [b_binary_loop fst].
  destruct (is_op (kind ts)) eqn:O.
  - eapply wp_bind; [apply b_binary_message_wp; auto|].
    intros [c [r1 f1]] [ko [op [p1 [-> [Ho [G1 B1]]]]]]. pose proof (operand_length _ _ _ _ _ G1) as L1.
    cbn [length] in Hm, Hk. rewrite app_length in Hm, Hk. eapply wp_bind; [apply IH; lia|].
    intros [c2 [r2 f2]] [p2 [-> G2]]. exists ((ko, op) :: p1 ++ p2).
    split; [cbn; rewrite <- app_assoc; reflexivity|]. eapply WO_cons; eauto.
  - cbn. exists []. split; [reflexivity|]. constructor.
Qed.

Lemma b_part_wp k ts : length ts <= m -> m < k ->
  wp (r <- b_binary_operand E n (ts, false) ;; let '(c, st) := r in
      r <- b_binary_loop E n k st ;; let '(c', st) := r in Ok (c ++ c', st))
  (fun '(_, (r, _)) => exists pre, ts = pre ++ r /\ W_part pre).
Proof.
  intros Hm Hk. eapply wp_bind; [apply b_operand_wp; exact Hm|].
  intros [e [r1 f1]] [p1 [-> G1]]. rewrite app_length in Hm.
  eapply wp_bind; [apply b_binary_loop_wp; lia|].
  intros [e2 [r2 f2]] [p2 [-> G2]]. exists (p1 ++ p2).
  split; [rewrite <- app_assoc; reflexivity|]. econstructor; eauto.
Qed.
Lemma b_formula_wp ts : length ts <= m -> wp (b_formula E n (ts, false))
  (fun '(_, (r, f)) => exists pre, ts = pre ++ r /\ W_part pre /\ f = false).
Proof.
  intros Hm. rewrite b_formula_alt by lia. eapply wp_bind; [apply b_part_wp; lia|].
  intros [c [r f]] [pre [A B]]. cbn. eauto.
Qed.

Lemma b_keyword_loop_wp : forall k ts, length ts <= m -> length ts < k ->
  wp (b_keyword_loop E n k (ts, false)) (fun '(_, _, (r, _)) => exists pre, ts = pre ++ r /\ W_keys pre).
Proof.
  induction k as [|k IH]; intros ts Hm Hk; [lia|]. cbn [b_keyword_loop].
  assert (N : wp (Ok (@nil ascii, @nil ev, (ts, false)))
    (fun '(_, _, (r, _)) => exists pre, ts = pre ++ r /\ W_keys pre)).
  { cbn. exists []. split; [reflexivity|]. constructor. }
  destruct (kind ts) eqn:K; try exact N.
  eapply wp_bind; [apply keyword_wp|]. intros [s r1] ->. cbn [length] in Hm, Hk.
  eapply wp_bind; [apply b_formula_wp; lia|]. intros [a [r2 f2]] [p2 [-> [G2 ->]]].
  pose proof (part_length _ _ _ _ G2) as L. rewrite app_length in Hm, Hk.
  eapply wp_bind; [apply IH; auto; lia|]. intros [[sel args] [r3 f3]] [p3 [-> G3]].
  exists ((Keyword, s) :: p2 ++ p3). split; [cbn; rewrite <- app_assoc; reflexivity|]. constructor; auto.
Qed.

Lemma b_keyword_message_wp ts f : length ts <= m -> wp (b_keyword_message E n (ts, f))
  (fun '(_, (r, _)) => exists pre, ts = pre ++ r /\ W_keys pre).
Proof.
  intros Hm. unfold b_keyword_message.
  eapply wp_bind; [apply keyword_wp|]. intros [s r1] ->. cbn [length] in Hm.
  eapply wp_bind; [apply b_formula_wp; lia|]. intros [a [r2 f2]] [p2 [-> [G2 ->]]].
  rewrite app_length in Hm. eapply wp_bind; [apply b_keyword_loop_wp; lia|].
  intros [[sel args] [r3 f3]] [p3 [-> G3]].
  exists ((Keyword, s) :: p2 ++ p3). split; [cbn; rewrite <- app_assoc; reflexivity|]. constructor; auto.
Qed.

Lemma b_evaluation_wp ts : length ts <= m -> wp (b_evaluation E n (ts, false))
  (fun '(_, (r, f)) => exists pre, ts = pre ++ r /\ W_expr pre /\ f = false).
Proof.
  intros Hm. rewrite b_evaluation_alt by lia. eapply wp_bind; [apply b_part_wp; lia|].
  intros [e [r1 f1]] [p1 [-> G1]]. cbn [fst].
  assert (N : exists pre, p1 ++ r1 = pre ++ r1 /\ W_expr pre /\ false = false).
  { exists (p1 ++ []). rewrite app_nil_r. split; [reflexivity|]. split; [|reflexivity].
    rewrite <- (app_nil_r p1). constructor; auto. constructor. }
  destruct (kind r1) eqn:K; try exact N.
  rewrite app_length in Hm. pose proof (b_keyword_message_wp r1 f1 ltac:(lia)) as H.
  destruct (b_keyword_message E n (r1, f1)) as [[c [r2 f2]]|x]; [|exact H]. cbn in *.
  destruct H as [p2 [-> G2]]. exists (p1 ++ p2). split; [rewrite <- app_assoc; reflexivity|].
  split; [constructor; auto | auto].
Qed.

Lemma b_assignments_wp : forall k ts, length ts < k ->
  wp (b_assignments k ts) (fun '(_, r) => exists pre, ts = pre ++ r /\
    (forall q, W_expr q -> W_expr (pre ++ q))).
Proof.
  induction k as [|k IH]; intros ts Hk; [lia|]. cbn [b_assignments].
  destruct (is_ident (kind ts)) eqn:I.
  - destruct (ident_cons _ I) as [kk [v [r1 [-> Hkk]]]]. cbn [tl ttext].
    eapply wp_bind; [apply expect_wp; discriminate|]. intros r2 [a ->]. cbn [length] in Hk.
    eapply wp_bind with (Q := fun '(_, r) => exists pre, r2 = pre ++ r /\
      (forall q, W_expr q -> W_expr (pre ++ q))).
    + destruct (sym_eqb (kind (tl r2)) Assign); [apply IH; lia|]. cbn. exists []. split; auto.
    + intros [vs r3] [pre [-> G]]. cbn. exists ((kk, v) :: (Assign, a) :: pre). split; [reflexivity|].
      intros q Hq. cbn. constructor; auto. exact Logic.I.
  - cbn. exists []. auto.
Qed.

Lemma b_expression_wp_ ts : length ts <= m -> wp (b_expression_ E n (ts, false))
  (fun '(_, (r, f)) => exists pre, ts = pre ++ r /\ W_expr pre /\ f = false).
Proof.
  intros Hm. unfold b_expression_. cbn [fst]. destruct (sym_eqb (kind (tl ts)) Assign).
  - unfold b_assignation. eapply wp_bind; [apply b_assignments_wp; lia|]. intros [vs r1] [p1 [-> G1]].
    rewrite app_length in Hm. eapply wp_bind; [apply b_evaluation_wp; lia|].
    intros [c [r2 f2]] [p2 [-> [G2 ->]]]. exists (p1 ++ p2). split; [rewrite <- app_assoc; reflexivity|]. auto.
  - apply b_evaluation_wp, Hm.
Qed.
End In.

Lemma b_expression_wp n : b_ok (b_expression n) (n - 1).
Proof.
  induction n as [|n IH]; intros ts Hl; [lia|]. cbn [b_expression].
  apply (b_expression_wp_ _ (n - 1) n IH); lia.
Qed.

Lemma b_method_wp n ts : length ts < n -> wp (b_method n (ts, false))
  (fun '(_, (r, f)) => exists pre, ts = pre ++ r /\ bc_method_source pre /\ f = false).
Proof.
  intros Hl. unfold b_method. eapply wp_bind; [apply pattern_wp|]. intros [[sel ps] r1] [p1 [-> G1]].
  eapply wp_bind; [apply expect_wp; discriminate|]. intros r2 [eq ->].
  destruct (pattern_kind _ _ _ G1) as [_ L1]. rewrite app_length in Hl. cbn [length] in Hl.
  assert (N : wp (ts <- expect NewTerm r2 ;;
      r <- block_locals ts ;; let '(ls, ts) := r in
      r <- b_block_body (b_expression n) n false false [] (ts, false) ;;
      let '(code, fin, (ts, f)) := r in
      let code := if fin then code else code ++ [RetSelf] in
      ts <- expect EndTerm ts ;;
      Ok ({| bm_selector := sel; bm_params := ps; bm_body := Some (ls, code) |}, (ts, f)))
      (fun '(_, (r, f)) => exists pre, p1 ++ (Equal, eq) :: r2 = pre ++ r /\ bc_method_source pre /\ f = false)).
  { eapply wp_bind; [apply expect_wp; discriminate|]. intros r3 [o ->].
    eapply wp_bind; [apply block_locals_wp|]. intros [ls r4] [p4 [-> [G4 _]]].
    cbn [length] in Hl. rewrite app_length in Hl.
    eapply wp_bind; [apply (b_body_wp _ (n - 1) n (b_expression_wp n)); lia|].
    intros [[code fin] [r5 f5]] [p5 [-> [G5 ->]]].
    eapply wp_bind; [apply expect_wp; discriminate|]. intros r6 [c ->].
    exists (p1 ++ (Equal, eq) :: (NewTerm, o) :: p4 ++ p5 ++ [(EndTerm, c)]).
    split; [rewrite <- !app_assoc; cbn; rewrite <- !app_assoc; reflexivity|]. split; [|reflexivity].
    econstructor; eauto. }
  destruct (kind r2) eqn:K; try exact N.
  destruct (kind_cons _ _ K ltac:(discriminate)) as [p [q ->]]. cbn.
  exists (p1 ++ [(Equal, eq); (Primitive, p)]). split; [rewrite <- app_assoc; reflexivity|].
  split; [|reflexivity]. econstructor; eauto.
Qed.
End BcSound.

(** * Classes *)
Section ClassSound.
Variable nx : tokens -> Prop.
Variable oo : bool -> text -> tokens -> Prop.
Variable tok : text -> Prop.
Context {M : Type}.
Variable n : nat.
Variable meth : pstate -> res (M * pstate).
(** the flags with which the method parser is called *)
Variable flag : bool -> Prop.
Hypothesis meth_wp : forall ts f, flag f -> length ts < n -> wp (meth (ts, f))
  (fun '(_, (r, f)) => exists pre, ts = pre ++ r /\ W_method nx oo tok pre /\ flag f).

Lemma method_length ts : W_method nx oo tok ts -> 1 <= length ts.
Proof.
  intros H. destruct H as [? ? ? ? ? ? ? ? ? G|? ? ? ? ? G]; destruct (pattern_kind _ _ _ G) as [_ L];
    rewrite app_length; lia.
Qed.
Lemma methods_wp : forall k ts f, flag f -> length ts < n -> length ts < k ->
  wp (methods meth k (ts, f))
  (fun '(_, (r, f)) => exists pre, ts = pre ++ r /\ W_methods nx oo tok pre /\ flag f).
Proof.
  induction k as [|k IH]; intros ts f Hf Hn Hk; [lia|]. cbn [methods fst].
  destruct (starts_pattern (kind ts)).
  - eapply wp_bind; [apply meth_wp; auto|]. intros [m [r1 f1]] [p1 [-> [G1 F1]]].
    pose proof (method_length _ G1). rewrite app_length in Hn, Hk.
    eapply wp_bind; [apply IH; auto; lia|]. intros [ms [r2 f2]] [p2 [-> [G2 F2]]].
    exists (p1 ++ p2). split; [rewrite <- app_assoc; reflexivity|]. split; [constructor; auto | auto].
  - cbn. exists []. split; [reflexivity|]. split; [constructor | auto].
Qed.
Lemma members_wp k ts f : flag f -> length ts < n -> length ts < k ->
  wp (r <- block_locals ts ;; let '(fs, ts) := r in
      r <- methods meth k (ts, f) ;; let '(ms, st) := r in Ok (fs, ms, st))
  (fun '(_, _, (r, f)) => exists pre, ts = pre ++ r /\ W_members nx oo tok pre /\ flag f).
Proof.
  intros Hf Hn Hk. eapply wp_bind; [apply block_locals_wp|]. intros [fs r1] [p1 [-> [G1 B1]]].
  rewrite app_length in Hn, Hk. eapply wp_bind; [apply methods_wp; auto; lia|].
  intros [ms [r2 f2]] [p2 [-> [G2 F2]]]. exists (p1 ++ p2). split; [rewrite <- app_assoc; reflexivity|].
  split; [|auto]. econstructor; eauto. intros E. specialize (B1 E).
  destruct p2 as [|[k0 t0] p2]; [discriminate | exact B1].
Qed.
Lemma class_wp ts f : flag f -> length ts < n -> wp (class_definition meth n (ts, f))
  (fun '(_, (r, _)) => exists pre, ts = pre ++ r /\ W_class nx oo tok pre).
Proof.
  intros Hf Hn. unfold class_definition.
  eapply wp_bind; [apply expect_wp; discriminate|]. intros r1 [name ->].
  eapply wp_bind; [apply expect_wp; discriminate|]. intros r2 [eq ->]. cbn [ttext].
  assert (Hs : exists sup sts r3, match kind r2 with
                      | Identifier => (Some (ttext r2), tl r2)
                      | _ => (None, r2)
                      end = (sup, r3) /\ r2 = sts ++ r3 /\ (sts = [] \/ exists s, sts = [(Identifier, s)])).
  { assert (N : exists sup sts r3, (@None text, r2) = (sup, r3) /\ r2 = sts ++ r3
        /\ (sts = [] \/ exists s, sts = [(Identifier, s)])).
    { exists None, [], r2. auto. }
    destruct (kind r2) eqn:K; try exact N.
    destruct (kind_cons _ _ K ltac:(discriminate)) as [s [q ->]].
    exists (Some s), [(Identifier, s)], q. split; [reflexivity|]. split; [reflexivity | eauto]. }
  destruct Hs as [sup [sts [r3 [-> [-> Hs]]]]].
  eapply wp_bind; [apply expect_wp; discriminate|]. intros r4 [o ->].
  cbn [length] in Hn. rewrite app_length in Hn. cbn [length] in Hn.
  pose proof (members_wp n r4 f Hf ltac:(lia) ltac:(lia)) as H1.
  destruct (block_locals r4) as [[fs r5]|x]; [|exact H1]. cbn [bind] in H1 |- *.
  destruct (methods meth n (r5, f)) as [[ms [r6 f6]]|x]; [|exact H1]. cbn [bind wp] in H1 |- *.
  destruct H1 as [p6 [-> [G6 F6]]]. rewrite app_length in Hn.
  eapply wp_bind with (Q := fun '(_, _, (r, f)) => exists pre, r6 = pre ++ r /\ W_side nx oo tok pre).
  - assert (N : wp (Ok (@nil text, @nil M, (r6, f6)))
      (fun '(_, _, (r, f)) => exists pre, r6 = pre ++ r /\ W_side nx oo tok pre)).
    { cbn. exists []. split; [reflexivity | constructor]. }
    destruct (kind r6) eqn:K; try exact N.
    destruct (kind_cons _ _ K ltac:(discriminate)) as [s [q ->]]. cbn [tl]. cbn [length] in Hn.
    eapply wp_weaken; [apply members_wp; auto; lia|]. intros [[cfs cms] [r7 f7]] [p7 [-> [G7 _]]].
    exists ((Separator, s) :: p7). split; [reflexivity | constructor; auto].
  - intros [[cfs cms] [r7 f7]] [p7 [-> G7]].
    eapply wp_bind; [apply expect_wp; discriminate|]. intros r8 [c ->].
    exists ((Identifier, name) :: (Equal, eq) :: sts ++ (NewTerm, o) :: p6 ++ p7 ++ [(EndTerm, c)]).
    split; [cbn; rewrite <- app_assoc; cbn; rewrite <- !app_assoc; reflexivity|]. constructor; auto.
Qed.
End ClassSound.

(** * The grammar with trees and the grammar without *)
Section Forget.
Variable oo : bool -> text -> bool -> tokens -> Prop.
Variable ao : bool -> list expr -> Prop.
Variable tk : text -> Prop.
Notation W_primary := (W_primary never every_operand any_target).
Notation W_operand := (W_operand never every_operand any_target).
Notation W_operators := (W_operators never every_operand any_target).
Notation W_part := (W_part never every_operand any_target).
Notation W_keys := (W_keys never every_operand any_target).
Notation W_expr := (W_expr never every_operand any_target).
Notation W_body := (W_body never every_operand any_target).

Lemma operators_snoc s q : W_operators s q -> forall k op s' r, operator_token k -> W_operand s' r ->
  W_operators s (q ++ (k, op) :: r).
Proof.
  induction 1 as [s|s k op s' ts ts' Hk H1 H2 H3 IH]; intros k1 op1 s1 r Hk1 Hr.
  - cbn. rewrite <- (app_nil_r r). econstructor; eauto; [exact I | constructor].
  - cbn. rewrite <- app_assoc. econstructor; eauto.
Qed.
Lemma part_snoc ts k op s' r : W_part ts -> operator_token k -> W_operand s' r -> W_part (ts ++ (k, op) :: r).
Proof.
  intros H Hk Hr. destruct H as [s p q Hp Hq]. rewrite <- app_assoc.
  econstructor; eauto. eapply operators_snoc; eauto.
Qed.
Lemma targets_expr vs vts ts : G_targets tk vs vts -> W_expr ts -> W_expr (vts ++ ts).
Proof. induction 1; intros; cbn; constructor; auto; exact I. Qed.

Lemma forget_trees :
  (forall e s ts, G_primary oo ao tk e s ts -> W_primary s ts) /\
  (forall e s ts, G_unary oo ao tk e s ts -> W_operand s ts) /\
  (forall e s ts, G_binary oo ao tk e s ts -> W_part ts) /\
  (forall sel args ts, G_args oo ao tk sel args ts -> W_keys ts) /\
  (forall e ts, G_eval oo ao tk e ts -> W_expr ts) /\
  (forall e ts, G_expr oo ao tk e ts -> W_expr ts) /\
  (forall es ret ts, G_body oo ao tk es ret ts -> W_body ts).
Proof.
  apply (G_all oo ao tk); intros.
  - constructor; auto. split; [discriminate | contradiction].
  - constructor; auto. tauto.
  - constructor; auto.
  - econstructor; eauto.
  - econstructor; eauto.
  - constructor; auto.
  - eapply WU_send; eauto.
  - rewrite <- (app_nil_r ts). econstructor; eauto. constructor.
  - eapply part_snoc; eauto.
  - constructor.
  - constructor; auto.
  - rewrite <- (app_nil_r ts). constructor; auto. constructor.
  - constructor; auto.
  - auto.
  - eapply targets_expr; eauto.
  - constructor.
  - apply WS_last. auto.
  - apply WS_more; auto.
  - apply WS_return; auto.
Qed.
Lemma forget_method m ts : G_method oo ao tk m ts -> method_source ts.
Proof.
  destruct forget_trees as [_ [_ [_ [_ [_ [_ FB]]]]]].
  intros H. destruct H; econstructor; eauto.
Qed.
Lemma forget_methods ms ts : G_methods oo ao tk ms ts -> W_methods never every_operand any_target ts.
Proof. induction 1; constructor; auto. eapply forget_method; eauto. Qed.
Lemma forget_class c ts : G_class oo ao tk c ts -> source ts.
Proof.
  intros H. destruct H as [name eq sup sts o fs fts ms mts side cfs cms c Hs Hf Hm Hb Hside].
  unfold source. rewrite (app_assoc fts). constructor.
  - destruct Hs as [[_ ->] | [s [_ ->]]]; eauto.
  - econstructor; eauto. eapply forget_methods; eauto.
  - destruct Hside; constructor. econstructor; eauto. eapply forget_methods; eauto.
Qed.
End Forget.

Section Trees.
Variable wo : bool -> text -> tokens -> Prop.
Variable wt : text -> Prop.
Notation G_primary := (G_primary any_operand any_args any_target).
Notation G_unary := (G_unary any_operand any_args any_target).
Notation G_binary := (G_binary any_operand any_args any_target).
Notation G_args := (G_args any_operand any_args any_target).
Notation G_expr := (G_expr any_operand any_args any_target).
Notation G_body := (G_body any_operand any_args any_target).

Lemma have_trees :
  (forall s ts, W_primary never wo wt s ts -> exists e, G_primary e s ts) /\
  (forall s ts, W_operand never wo wt s ts -> exists e, G_unary e s ts) /\
  (forall s ts, W_operators never wo wt s ts -> forall l s0 p, G_binary l s0 p -> exists e s1, G_binary e s1 (p ++ ts)) /\
  (forall ts, W_part never wo wt ts -> exists e s, G_binary e s ts) /\
  (forall ts, W_keys never wo wt ts -> exists sel args, G_args sel args ts /\ (args = [] -> ts = [])) /\
  (forall ts, W_expr never wo wt ts -> exists e, G_expr e ts) /\
  (forall ts, W_body never wo wt ts -> exists es ret, G_body es ret ts).
Proof.
  apply (W_all never wo wt).
  - intros k n s Hk Hs. destruct s.
    + exists (Var t_self). rewrite (proj1 Hs eq_refl). constructor; auto.
    + exists (Var n). constructor; auto. intros E. apply Hs in E. discriminate.
  - intros o ts c _ [e He]. exists e. constructor; auto.
  - intros o ps pts ls lts ts c Hp Hl _ [es [ret Hb]]. exists (Blk ps ls es ret). constructor; auto.
  - intros l ts H. exists (Lit l). constructor; auto.
  - intros s ts _ [e He]. exists e. constructor; auto.
  - intros s ts k sel _ [e He] Hk. exists (Send s e sel []). apply U_send; auto.
  - intros s l s0 p H. rewrite app_nil_r. eauto.
  - intros s k op s' ts ts' Hk _ [e He] _ _ IH l s0 p Hp.
    destruct (IH (Send s0 l op [e]) false (p ++ (k, op) :: ts)) as [e1 [s1 H1]].
    + eapply B_send; eauto. exact I.
    + exists e1, s1. rewrite <- app_assoc in H1. exact H1.
  - intros s ts ts' _ [e He] _ IH. apply (IH e s). constructor. exact He.
  - exists [], []. split; [constructor | auto].
  - intros key ts ts' _ [e [s He]] _ [sel [args [Ha _]]]. exists (key ++ sel), (e :: args).
    split; [econstructor; eauto | discriminate].
  - intros ts ts' _ [e [s He]] _ [sel [args [Ha Hn]]]. destruct args as [|a args].
    + rewrite (Hn eq_refl), app_nil_r. exists e. apply E_eval. econstructor; eauto.
    + exists (Send s e sel (a :: args)). apply E_eval. eapply K_send; eauto; [discriminate | exact I].
  - intros k v a ts Hk _ _ [e He]. destruct He as [e ts He | vs vts e ts Hv He].
    + exists (Asgn [v] e). apply (E_assign _ _ _ [v] [(k, v); (Assign, a)]); auto.
      constructor; auto. exact I.
    + exists (Asgn (v :: vs) e). apply (E_assign _ _ _ (v :: vs) ((k, v) :: (Assign, a) :: vts)); auto.
      constructor; auto. exact I.
  - exists [], None. constructor.
  - intros ts _ [e He]. exists [e], None. apply S_last; auto.
  - intros ts p ts' _ [e He] _ [es [ret Hb]]. exists (e :: es), ret. apply S_more; auto.
  - intros ts ts' _ _ H. destruct H.
  - intros x ts dot _ [e He] Hd. exists [], (Some e). apply S_return; auto.
Qed.
Lemma have_method ts : W_method never wo wt ts -> exists m, G_method any_operand any_args any_target m ts.
Proof.
  destruct have_trees as [_ [_ [_ [_ [_ [_ HB]]]]]]. intros H. destruct H as [sel ps pts eq o ls lts ts c H1 H2 H3|].
  - destruct (HB _ H3) as [es [ret Hb]]. eexists. econstructor; eauto.
  - eexists. econstructor; eauto.
Qed.
Lemma have_methods ts : W_methods never wo wt ts -> exists ms, G_methods any_operand any_args any_target ms ts.
Proof.
  induction 1 as [|ts ts' H _ [ms Hms]]; [exists []; constructor|].
  destruct (have_method _ H) as [m Hm]. exists (m :: ms). constructor; auto.
Qed.
Lemma have_class ts : W_class never wo wt ts -> exists c, G_class any_operand any_args any_target c ts.
Proof.
  intros H. destruct H as [name eq sts o ts side c Hs Hm Hside].
  destruct Hm as [fs fts mts Hf Hm Hb]. destruct (have_methods _ Hm) as [ms Hms].
  assert (Hsup : exists sup, sup = None /\ sts = [] \/ exists s, sup = Some s /\ sts = [(Identifier, s)]).
  { destruct Hs as [-> | [s ->]]; [exists None | exists (Some s)]; eauto. }
  assert (HS : exists cfs cms, G_side any_operand any_args any_target cfs cms side).
  { destruct Hside as [|s ts Hc]; [exists [], []; constructor|].
    destruct Hc as [cfs cts cmts Hcf Hcm Hcb]. destruct (have_methods _ Hcm) as [cms Hcms].
    exists cfs, cms. constructor; auto. }
  destruct Hsup as [sup Hsup], HS as [cfs [cms HS]]. eexists. rewrite <- app_assoc.
  apply CD with (fs := fs) (ms := ms) (sup := sup); eauto.
Qed.
End Trees.

(** Weaker conditions, more sources. *)
Section Weaken.
Variables nx nx' : tokens -> Prop.
Variables oo oo' : bool -> text -> tokens -> Prop.
Variables tk tk' : text -> Prop.
(** [N]: something that holds of every part of a list of tokens of which it holds *)
Variable N : tokens -> Prop.
Hypothesis N_app : forall a b, N (a ++ b) -> N a /\ N b.
Hypothesis Hnx : forall ts, nx ts -> nx' ts.
Hypothesis Hoo : forall s k op s' ts r, N ((k, op) :: ts ++ r) -> W_operand nx oo tk s' ts ->
  oo s op ts -> oo' s op ts.
Hypothesis Htk : forall k v a r, N ((k, v) :: (Assign, a) :: r) -> tk v -> tk' v.

Lemma N_cons x r : N (x :: r) -> N r.
Proof. intros H. apply (N_app [x] r H). Qed.
Lemma weaken :
  (forall s ts, W_primary nx oo tk s ts -> N ts -> W_primary nx' oo' tk' s ts) /\
  (forall s ts, W_operand nx oo tk s ts -> N ts -> W_operand nx' oo' tk' s ts) /\
  (forall s ts, W_operators nx oo tk s ts -> N ts -> W_operators nx' oo' tk' s ts) /\
  (forall ts, W_part nx oo tk ts -> N ts -> W_part nx' oo' tk' ts) /\
  (forall ts, W_keys nx oo tk ts -> N ts -> W_keys nx' oo' tk' ts) /\
  (forall ts, W_expr nx oo tk ts -> N ts -> W_expr nx' oo' tk' ts) /\
  (forall ts, W_body nx oo tk ts -> N ts -> W_body nx' oo' tk' ts).
Proof.
  apply (W_all nx oo tk); intros.
  - constructor; auto.
  - constructor. apply H0. apply N_cons, N_app in H1. apply H1.
  - econstructor; eauto. apply H2. apply N_cons, N_app in H3. destruct H3 as [_ H3].
    apply N_app in H3. destruct H3 as [_ H3]. apply N_app in H3. apply H3.
  - econstructor; eauto.
  - constructor; auto.
  - eapply WU_send; eauto. apply H0. apply N_app in H2. apply H2.
  - constructor.
  - pose proof H5 as H6. apply N_cons, N_app in H5. destruct H5. eapply WO_cons; eauto.
  - apply N_app in H3. destruct H3. econstructor; eauto.
  - constructor.
  - apply N_cons, N_app in H3. destruct H3. constructor; auto.
  - apply N_app in H3. destruct H3. constructor; auto.
  - constructor; eauto. apply H2. eapply N_cons, N_cons, H3.
  - constructor.
  - apply WS_last. auto.
  - apply N_app in H3. destruct H3 as [A B]. apply N_cons in B. apply WS_more; auto.
  - apply N_app in H4. destruct H4 as [A B]. apply WS_next; auto.
  - apply N_cons, N_app in H2. destruct H2. apply WS_return; auto.
Qed.
Lemma weaken_method ts : W_method nx oo tk ts -> N ts -> W_method nx' oo' tk' ts.
Proof.
  destruct weaken as [_ [_ [_ [_ [_ [_ WB]]]]]]. intros H Hn. destruct H.
  - econstructor; eauto. apply WB; auto. apply N_app in Hn. destruct Hn as [_ Hn].
    apply N_cons, N_cons, N_app in Hn. destruct Hn as [_ Hn]. apply N_app in Hn. apply Hn.
  - econstructor; eauto.
Qed.
Lemma weaken_methods ts : W_methods nx oo tk ts -> N ts -> W_methods nx' oo' tk' ts.
Proof.
  induction 1; intros Hn; [constructor|]. apply N_app in Hn. destruct Hn.
  constructor; auto. apply weaken_method; auto.
Qed.
Lemma weaken_members ts : W_members nx oo tk ts -> N ts -> W_members nx' oo' tk' ts.
Proof.
  intros H Hn. destruct H. apply N_app in Hn. econstructor; eauto. apply weaken_methods; auto. apply Hn.
Qed.
Lemma weaken_class ts : W_class nx oo tk ts -> N ts -> W_class nx' oo' tk' ts.
Proof.
  intros H Hn. destruct H as [name eq sts o ts side c Hs Hm Hside].
  apply N_cons, N_cons, N_app in Hn. destruct Hn as [_ Hn]. apply N_cons, N_app in Hn. destruct Hn as [N1 Hn].
  apply N_app in Hn. destruct Hn as [N2 _].
  constructor; auto; [apply weaken_members; auto|].
  destruct Hside; constructor. apply weaken_members; auto. eapply N_cons; eauto.
Qed.
End Weaken.

(** * Completeness of the AST parser *)
(** The tree depends neither on what follows nor on the bounds of the loops. *)
Section AstComplete.
Notation W_primary := (W_primary fresh_start every_operand assignable).
Notation W_operand := (W_operand fresh_start every_operand assignable).
Notation W_operators := (W_operators fresh_start every_operand assignable).
Notation W_part := (W_part fresh_start every_operand assignable).
Notation W_keys := (W_keys fresh_start every_operand assignable).
Notation W_expr := (W_expr fresh_start every_operand assignable).
Notation W_body := (W_body fresh_start every_operand assignable).
Notation X n := (a_expression n).

Definition a_cont n k (st : pstate) : res (list text * expr * pstate) :=
  if sym_eqb (kind (tl (fst st))) Assign then a_assignments (X n) n k st
  else r <- a_evaluation (X n) n st ;; let '(e, st) := r in Ok ([], e, st).

Definition CA_primary (ts : tokens) := forall f, exists e f', forall n rest, length ts <= n ->
  a_primary (X n) n (ts ++ rest, f) = Ok (e, (rest, f')).
Definition CA_operand (ts : tokens) := forall f, exists e f', forall n rest, length ts <= n ->
  a_binary_operand (X n) n (ts ++ rest, f) = Ok (a_unary_loop e rest f').
Definition CA_operators (ts : tokens) := forall e f, exists e' f', forall n k rest,
  length ts <= n -> length ts < k -> is_ident (kind rest) = false -> is_op (kind rest) = false ->
  a_binary_loop (X n) n k e (ts ++ rest, f) = Ok (e', (rest, f')).
Definition CA_part (ts : tokens) := forall f, exists e f', forall n rest,
  length ts <= n -> is_ident (kind rest) = false -> is_op (kind rest) = false ->
  (r <- a_binary_operand (X n) n (ts ++ rest, f) ;; let '(e, st) := r in a_binary_loop (X n) n n e st)
  = Ok (e, (rest, f')).
Definition CA_keys (ts : tokens) := forall f, exists sel args f', forall n k rest,
  length ts <= n -> length ts < k ->
  is_ident (kind rest) = false -> is_op (kind rest) = false -> kind rest <> Keyword ->
  a_keyword_loop (X n) n k (ts ++ rest, f) = Ok (sel, args, (rest, f')).
Definition CA_expr (ts : tokens) := forall f, exists vs e, forall n k rest,
  length ts <= n -> length ts <= k -> stop rest -> a_cont n k (ts ++ rest, f) = Ok (vs, e, (rest, false)).
Definition CA_body (ts : tokens) := forall f, exists es ret f', forall n k rest,
  length ts < n -> length ts < k -> kind rest = EndBlock \/ kind rest = EndTerm ->
  a_block_body (X n) k (ts ++ rest, f) = Ok (es, ret, (rest, f')).

Lemma second_assign ts rest : starts ts -> kind rest <> Assign ->
  sym_eqb (kind (tl (ts ++ rest))) Assign = sym_eqb (kind (tl ts)) Assign.
Proof.
  intros [k [t [r [-> _]]]] H. cbn [app tl]. destruct r as [|[k2 t2] r]; cbn; [|reflexivity].
  rewrite sym_eqb_neq by exact H. reflexivity.
Qed.
Lemma ca_expression ts : W_expr ts -> CA_expr ts -> forall f, exists e, forall n rest, length ts < n -> stop rest ->
  a_expression n (ts ++ rest, f) = Ok (e, (rest, false)).
Proof.
  intros W H f. destruct (H f) as [vs [e He]].
  exists (if sym_eqb (kind (tl ts)) Assign then Asgn vs e else e).
  intros n rest Hn Hr. destruct n as [|n]; [lia|]. cbn [a_expression]. unfold a_expression_. cbn [fst].
  specialize (He n n rest ltac:(lia) ltac:(lia) Hr). unfold a_cont in He. cbn [fst] in He.
  rewrite second_assign in *; auto; try apply (expr_starts _ _ _ _ W); try apply Hr.
  destruct (sym_eqb (kind (tl ts)) Assign).
  - rewrite He. reflexivity.
  - destruct (a_evaluation (X n) n (ts ++ rest, f)) as [[e1 st1]|x]; [|discriminate]. cbn in He.
    injection He as <- <- <-. reflexivity.
Qed.
Lemma expr_not_end ts rest : starts ts ->
  kind (ts ++ rest) <> Exit /\ kind (ts ++ rest) <> EndBlock /\ kind (ts ++ rest) <> EndTerm /\ kind (ts ++ rest) <> Or
  /\ kind (ts ++ rest) <> Colon.
Proof.
  intros H. destruct (starts_kind ts rest H) as [-> [S1 _]]. cbn in S1.
  repeat split; intros K; rewrite K in S1; repeat (destruct S1 as [S1 | S1]; [discriminate|]); destruct S1.
Qed.
Lemma a_body_step k ts f : kind ts <> Exit -> kind ts <> EndBlock -> kind ts <> EndTerm -> forall E,
  a_block_body E (S k) (ts, f) =
  (r <- E (ts, f) ;; let '(e, (ts, f)) := r in
   r <- a_block_body E k (snd (accept Period ts), f) ;;
   let '(es, ret, st) := r in Ok (e :: es, ret, st)).
Proof. intros H1 H2 H3 E. cbn [a_block_body]. destruct (kind ts); try reflexivity; contradiction. Qed.
Lemma a_body_end k ts f E : kind ts = EndBlock \/ kind ts = EndTerm ->
  a_block_body E (S k) (ts, f) = Ok ([], None, (ts, f)).
Proof. intros [H | H]; cbn [a_block_body]; rewrite H; reflexivity. Qed.
Lemma accept_no_period ts : kind ts <> Period -> snd (accept Period ts) = ts.
Proof. intros H. unfold accept. rewrite sym_eqb_neq by exact H. reflexivity. Qed.
Lemma body_first nx oo tk ts rest : AcceptSpec.W_body nx oo tk ts -> kind rest = EndBlock \/ kind rest = EndTerm ->
  kind (ts ++ rest) <> Or /\ kind (ts ++ rest) <> Colon.
Proof.
  intros H Hr. destruct (w_shape nx oo tk) as [_ [_ [_ [_ [_ [_ Sh]]]]]].
  destruct (Sh _ H) as [-> | [S1 | S1]].
  - cbn. destruct Hr as [-> | ->]; split; discriminate.
  - destruct (expr_not_end ts rest S1) as [_ [_ [_ [A B]]]]. auto.
  - destruct ts as [|[k t] r]; [discriminate|]. cbn in *. subst k. split; discriminate.
Qed.
Lemma locals_first ls lts rest : G_locals ls lts -> kind rest <> Colon -> kind (lts ++ rest) <> Colon.
Proof. intros H K. destruct H; cbn; [exact K | discriminate]. Qed.
Lemma fresh_stop ts rest : fresh_start ts -> stop (ts ++ rest) /\ kind (ts ++ rest) <> Period.
Proof.
  unfold fresh_start. destruct ts as [|[k t] r]; cbn [kind app].
  - intros H. cbn in H. repeat (destruct H as [H | H]; [discriminate|]). destruct H.
  - intros H. unfold stop. cbn [kind]. cbn in H.
    repeat (destruct H as [<- | H]; [repeat split; discriminate|]). destruct H.
Qed.

Lemma ast_complete :
  (forall s ts, W_primary s ts -> CA_primary ts) /\
  (forall s ts, W_operand s ts -> CA_operand ts) /\
  (forall s ts, W_operators s ts -> CA_operators ts) /\
  (forall ts, W_part ts -> W_part ts /\ CA_part ts) /\
  (forall ts, W_keys ts -> CA_keys ts) /\
  (forall ts, W_expr ts -> W_expr ts /\ CA_expr ts) /\
  (forall ts, W_body ts -> CA_body ts).
Proof.
  apply (W_all fresh_start every_operand assignable).
  - (* a name *)
    intros k nm s Hk Hs f. apply name_ident in Hk.
    exists (if text_eqb nm t_super then Var t_self else Var nm), (if text_eqb nm t_super then true else f).
    intros n rest Hl. unfold a_primary. cbn [app kind ttext tl]. rewrite Hk.
    destruct (text_eqb nm t_super); reflexivity.
  - (* parentheses *)
    intros o ts c W [_ IH] f. destruct (ca_expression ts W IH f) as [e He]. exists e, false.
    intros n rest Hl. cbn in Hl. rewrite app_length in Hl. cbn in Hl. unfold a_primary. cbn [app kind is_ident tl].
    rewrite <- app_assoc. cbn [app]. rewrite He by (try apply stop_endterm; lia). reflexivity.
  - (* a block *)
    intros o ps pts ls lts ts c Hp Hlo W IH f. destruct (IH f) as [es [ret [f' Hb]]].
    exists (Blk ps ls es ret), f'. intros n rest Hl. cbn [length] in Hl. rewrite !app_length in Hl. cbn [length] in Hl.
    unfold a_primary. cbn [app kind is_ident]. unfold a_nested_block. rewrite <- !app_assoc. cbn [app].
    destruct (body_first _ _ _ ts ((EndBlock, c) :: rest) W (or_introl eq_refl)) as [B1 B2].
    rewrite (params_ok _ _ _ _ Hp) by (apply (locals_first _ _ _ Hlo); exact B2). cbn [bind].
    rewrite (locals_ok _ _ _ Hlo) by (intros _; exact B1). cbn [bind].
    rewrite (Hb n n ((EndBlock, c) :: rest)) by (auto; lia). reflexivity.
  - (* a literal *)
    intros l ts G f. exists (Lit l), f. intros n rest Hl. unfold a_primary.
    destruct (lit_starts _ _ G) as [S1 [_ [_ [K1 [K2 K3]]]]]. destruct (starts_kind ts rest S1) as [K _].
    rewrite K, K3, (proj1 literal_ok _ _ G n rest Hl). cbn [bind].
    destruct (kind ts); try reflexivity; contradiction.
  - (* a primary *)
    intros s ts _ IH f. destruct (IH f) as [e [f' He]]. exists e, f'. intros n rest Hl.
    unfold a_binary_operand. rewrite He by exact Hl. reflexivity.
  - (* a unary message *)
    intros s ts k sel _ IH Hk f. destruct (IH f) as [e [f' He]]. exists (Send f' e sel []), false.
    intros n rest Hl. rewrite app_length in Hl. cbn in Hl. rewrite <- app_assoc. rewrite He by lia.
    cbn. apply name_ident in Hk. rewrite Hk. reflexivity.
  - (* no operator *)
    intros s e f. exists e, f. intros n k rest _ Hk I O. destruct k; [cbn in Hk; lia|]. cbn. rewrite O. reflexivity.
  - (* an operator *)
    intros s k op s' ts ts' Hk W1 IH1 _ W2 IH2 e f. destruct (IH1 false) as [a [f1 H1]].
    destruct (IH2 (Send f e op [a]) f1) as [e2 [f2 H2]]. exists e2, f2.
    intros n kk rest Hl Hkk I O. cbn [length] in Hl, Hkk. rewrite app_length in Hl, Hkk.
    destruct kk as [|kk]; [lia|]. cbn [a_binary_loop app fst kind]. apply operator_op in Hk. rewrite Hk.
    unfold a_binary_message, binary_selector. cbn [kind ttext tl]. rewrite Hk. cbn [bind].
    rewrite <- app_assoc. rewrite H1 by lia.
    assert (I2 : is_ident (kind (ts' ++ rest)) = false).
    { destruct (w_shape fresh_start every_operand assignable) as [_ [_ [Sh _]]].
      destruct (Sh _ _ W2) as [-> | K]; [exact I|]. destruct ts' as [|[k3 t3] r3]; [discriminate|].
      cbn in *. apply op_not_ident, K. }
    rewrite unary_loop_stop by exact I2. cbn [bind]. apply H2; auto; lia.
  - (* a part *)
    intros s ts ts' W1 IH1 W2 IH2. split; [econstructor; eauto|]. intros f. destruct (IH1 f) as [a [f1 H1]].
    destruct (IH2 a f1) as [e2 [f2 H2]]. exists e2, f2. intros n rest Hl I O. rewrite app_length in Hl.
    pose proof (operand_length _ _ _ _ _ W1) as L1. rewrite <- app_assoc, H1 by lia.
    assert (I2 : is_ident (kind (ts' ++ rest)) = false).
    { destruct (w_shape fresh_start every_operand assignable) as [_ [_ [Sh _]]].
      destruct (Sh _ _ W2) as [-> | K]; [exact I|]. destruct ts' as [|[k3 t3] r3]; [discriminate|].
      cbn in *. apply op_not_ident, K. }
    rewrite unary_loop_stop by exact I2. cbn [bind]. apply H2; auto; lia.
  - (* no keyword *)
    intros f. exists [], [], f. intros n k rest _ Hk _ _ K. destruct k; [cbn in Hk; lia|]. cbn.
    destruct (kind rest); try reflexivity. contradiction.
  - (* a keyword *)
    intros key ts ts' _ [W1 IH1] W2 IH2 f. destruct (IH1 f) as [a [f1 H1]].
    destruct (IH2 false) as [sel [args [f2 H2]]]. exists (key ++ sel), (a :: args), f2.
    intros n k rest Hl Hk I O K. cbn [length] in Hl, Hk. rewrite app_length in Hl, Hk.
    destruct k as [|k]; [lia|]. cbn [a_keyword_loop app kind]. unfold keyword, expect. cbn [kind tl ttext].
    rewrite sym_eqb_refl. cbn [bind]. rewrite <- app_assoc.
    assert (Hn : is_ident (kind (ts' ++ rest)) = false /\ is_op (kind (ts' ++ rest)) = false).
    { destruct (w_shape fresh_start every_operand assignable) as [_ [_ [_ [_ [Sh _]]]]].
      destruct (Sh _ W2) as [-> | K']; [split; auto|]. destruct ts' as [|[k3 t3] r3]; [discriminate|].
      cbn in *. rewrite K'. auto. }
    specialize (H1 n (ts' ++ rest) ltac:(lia) (proj1 Hn) (proj2 Hn)). unfold a_formula.
    destruct (a_binary_operand (X n) n (ts ++ ts' ++ rest, f)) as [[e3 st3]|x]; [|discriminate]. cbn [bind] in *.
    rewrite H1. cbn [bind]. rewrite H2 by (auto; lia). reflexivity.
  - (* an evaluation *)
    intros ts ts' _ [W1 IH1] W2 IH2. split; [constructor; auto|]. intros f. destruct (IH1 f) as [e [f1 H1]].
    destruct (IH2 f1) as [sel [args [f2 H2]]].
    exists [], (match ts' with [] => e | _ => Send f1 e sel args end). intros n k rest Hl Hk Hr.
    unfold a_cont. cbn [fst].
    destruct (w_shape fresh_start every_operand assignable) as [_ [_ [_ [_ [Sh _]]]]].
    pose proof (part_length _ _ _ _ W1) as L1. rewrite app_length in Hl, Hk.
    destruct (part_starts _ _ _ _ W1) as [S1 S2].
    destruct Hr as [R1 [R2 [R3 R4]]].
    assert (NA : sym_eqb (kind (tl ((ts ++ ts') ++ rest))) Assign = false).
    { rewrite <- app_assoc, second_assign; auto.
      - destruct S1 as [k1 [t1 [q1 [-> _]]]]. destruct q1 as [|[k2 t2] q1]; [reflexivity|]. cbn in S2 |- *.
        apply sym_eqb_neq, S2.
      - destruct (Sh _ W2) as [-> | K]; [exact R4|]. destruct ts' as [|[k3 t3] r3]; [discriminate|]. cbn in *.
        congruence. }
    rewrite NA, evaluation_alt by lia. rewrite <- app_assoc.
    assert (Hn : is_ident (kind (ts' ++ rest)) = false /\ is_op (kind (ts' ++ rest)) = false).
    { destruct (Sh _ W2) as [-> | K']; [split; auto|]. destruct ts' as [|[k3 t3] r3]; [discriminate|].
      cbn in *. rewrite K'. auto. }
    rewrite (H1 n (ts' ++ rest) ltac:(lia) (proj1 Hn) (proj2 Hn)). cbn [bind fst].
    destruct ts' as [|[k3 t3] r3].
    + cbn [app]. destruct (kind rest); try reflexivity. contradiction.
    + destruct (Sh _ W2) as [K | K]; [discriminate|]. cbn in K. subst k3.
      unfold a_keyword_message. cbn [snd app kind]. cbn [length] in *.
      change ((Keyword, t3) :: r3 ++ rest) with (((Keyword, t3) :: r3) ++ rest).
      rewrite H2 by (auto; cbn [length]; lia). reflexivity.
  - (* an assignment *)
    intros k v a ts Hk [V1 V2] _ [W IH]. split; [constructor; auto; split; auto|]. intros f.
    destruct (IH f) as [vs [e He]]. exists (v :: vs), e. intros n kk rest Hl Hkk Hr. cbn [length] in Hl, Hkk.
    unfold a_cont. cbn [fst app tl kind]. rewrite sym_eqb_refl. destruct kk as [|kk]; [lia|]. cbn [a_assignments].
    unfold identifier, expect. cbn [kind ttext tl]. apply name_ident in Hk. rewrite Hk. cbn [bind kind tl].
    rewrite sym_eqb_refl. cbn [bind]. specialize (He n kk rest ltac:(lia) ltac:(lia) Hr).
    unfold a_cont in He. cbn [fst] in He. rewrite He. cbn [bind].
    rewrite (text_eqb_neq _ _ V1), (text_eqb_neq _ _ V2). reflexivity.
  - (* nothing *)
    intros f. exists [], None, f. intros n k rest _ Hk Hr. destruct k; [cbn in Hk; lia|]. apply a_body_end, Hr.
  - (* the last statement *)
    intros ts _ [W IH] f. destruct (ca_expression ts W IH f) as [e He]. exists [e], None, false.
    intros n k rest Hl Hk Hr. destruct k as [|[|k]]; [lia | pose proof (expr_length _ _ _ _ W); lia |].
    pose proof (expr_starts _ _ _ _ W) as S1. destruct (expr_not_end ts rest S1) as [E1 [E2 [E3 _]]].
    rewrite a_body_step by assumption. rewrite He by (try apply stop_end; auto). cbn [bind].
    rewrite accept_no_period by (destruct Hr as [-> | ->]; discriminate).
    rewrite a_body_end by exact Hr. reflexivity.
  - (* a statement and a period *)
    intros ts p ts' _ [W IH] _ IH2 f. destruct (ca_expression ts W IH f) as [e He].
    destruct (IH2 false) as [es [ret [f' Hb]]]. exists (e :: es), ret, f'. intros n k rest Hl Hk Hr.
    rewrite app_length in Hl, Hk. cbn [length] in Hl, Hk. destruct k as [|k]; [lia|].
    rewrite <- app_assoc. cbn [app]. pose proof (expr_starts _ _ _ _ W) as S1.
    destruct (expr_not_end ts ((Period, p) :: ts' ++ rest) S1) as [E1 [E2 [E3 _]]].
    rewrite a_body_step by assumption. rewrite He by (try apply stop_period; lia). cbn [bind].
    unfold accept. cbn [kind]. rewrite sym_eqb_refl. cbn [snd tl]. rewrite Hb by (auto; lia). reflexivity.
  - (* a statement without a period *)
    intros ts ts' _ [W IH] Hnx _ IH2 f. destruct (ca_expression ts W IH f) as [e He].
    destruct (IH2 false) as [es [ret [f' Hb]]]. exists (e :: es), ret, f'. intros n k rest Hl Hk Hr.
    pose proof (expr_length _ _ _ _ W) as L1.
    rewrite app_length in Hl, Hk. destruct k as [|k]; [lia|].
    rewrite <- app_assoc. pose proof (expr_starts _ _ _ _ W) as S1.
    destruct (expr_not_end ts (ts' ++ rest) S1) as [E1 [E2 [E3 _]]].
    destruct (fresh_stop ts' rest Hnx) as [F1 F2].
    rewrite a_body_step by assumption. rewrite He by (auto; lia). cbn [bind].
    rewrite accept_no_period by exact F2. rewrite Hb by (auto; lia). reflexivity.
  - (* a return *)
    intros x ts dot _ [W IH] Hd f. destruct (ca_expression ts W IH f) as [e He]. exists [], (Some e), false.
    intros n k rest Hl Hk Hr. cbn [length] in Hl, Hk. rewrite app_length in Hl, Hk. destruct k as [|k]; [lia|].
    cbn [a_block_body app kind tl]. rewrite <- app_assoc.
    destruct Hd as [-> | [p ->]]; cbn [app].
    + rewrite He by (try apply stop_end; auto; lia). cbn [bind].
      rewrite accept_no_period by (destruct Hr as [-> | ->]; discriminate). reflexivity.
    + rewrite He by (try apply stop_period; lia). cbn [bind]. unfold accept. cbn [kind]. rewrite sym_eqb_refl. reflexivity.
Qed.

Lemma a_method_complete ts f : ast_method_source ts -> exists m f', forall n rest, length ts < n ->
  a_method n (ts ++ rest, f) = Ok (m, (rest, f')).
Proof.
  intros H. destruct H as [sel ps pts eq o ls lts ts c Hp Hlo W | sel ps pts eq p Hp].
  - destruct ast_complete as [_ [_ [_ [_ [_ [_ CB]]]]]]. destruct (CB _ W f) as [es [ret [f' Hb]]].
    do 2 eexists. intros n rest Hl. rewrite app_length in Hl. cbn [length] in Hl. rewrite !app_length in Hl.
    cbn [length] in Hl. unfold a_method. rewrite <- app_assoc. cbn [app].
    rewrite (pattern_ok _ _ _ _ Hp) by discriminate. cbn [bind].
    unfold expect at 1. cbn [kind tl]. rewrite sym_eqb_refl. cbn [bind kind].
    unfold expect at 1. cbn [kind tl]. rewrite sym_eqb_refl. cbn [bind].
    rewrite <- !app_assoc. cbn [app].
    destruct (body_first _ _ _ ts ((EndTerm, c) :: rest) W (or_intror eq_refl)) as [B1 _].
    rewrite (locals_ok _ _ _ Hlo) by (intros _; exact B1). cbn [bind].
    rewrite (Hb n n ((EndTerm, c) :: rest)) by (auto; lia). cbn [bind].
    unfold expect. cbn [kind tl]. rewrite sym_eqb_refl. reflexivity.
  - do 2 eexists. intros n rest Hl. unfold a_method. rewrite <- app_assoc. cbn [app].
    rewrite (pattern_ok _ _ _ _ Hp) by discriminate. cbn [bind].
    unfold expect at 1. cbn [kind tl]. rewrite sym_eqb_refl. cbn [bind kind tl]. reflexivity.
Qed.
End AstComplete.

(** * Completeness of the bytecode parser *)
Section BcComplete.
Notation W_primary := (W_primary never bare_one any_target).
Notation W_operand := (W_operand never bare_one any_target).
Notation W_operators := (W_operators never bare_one any_target).
Notation W_part := (W_part never bare_one any_target).
Notation W_keys := (W_keys never bare_one any_target).
Notation W_expr := (W_expr never bare_one any_target).
Notation W_body := (W_body never bare_one any_target).
Notation X n := (b_expression n).

Definition b_cont n k (ts : tokens) : res (list text * list ev * pstate) :=
  r <- (if sym_eqb (kind (tl ts)) Assign then b_assignments k ts else Ok ([], ts)) ;;
  let '(vs, ts) := r in
  r <- b_evaluation (X n) n (ts, false) ;; let '(c, st) := r in Ok (vs, c, st).

Definition CB_primary (s : bool) (ts : tokens) := exists c, forall n rest, length ts <= n ->
  b_primary (X n) n (ts ++ rest, false) = Ok (c, (rest, s)).
Definition CB_operand (s : bool) (ts : tokens) := exists c, forall n rest, length ts <= n ->
  b_binary_operand (X n) n (ts ++ rest, false) = (let '(c', st) := b_unary_loop rest s in Ok (c ++ c', st)).
Definition CB_operators (s : bool) (ts : tokens) := exists c f', forall n k rest,
  length ts <= n -> length ts < k -> is_ident (kind rest) = false -> is_op (kind rest) = false ->
  b_binary_loop (X n) n k (ts ++ rest, s) = Ok (c, (rest, f')).
Definition CB_part (ts : tokens) := exists c f', forall n k rest,
  length ts <= n -> length ts <= k -> is_ident (kind rest) = false -> is_op (kind rest) = false ->
  (r <- b_binary_operand (X n) n (ts ++ rest, false) ;; let '(c, st) := r in
   r <- b_binary_loop (X n) n k st ;; let '(c', st) := r in Ok (c ++ c', st))
  = Ok (c, (rest, f')).
Definition CB_keys (ts : tokens) := exists sel c, forall n k rest,
  length ts <= n -> length ts < k ->
  is_ident (kind rest) = false -> is_op (kind rest) = false -> kind rest <> Keyword ->
  b_keyword_loop (X n) n k (ts ++ rest, false) = Ok (sel, c, (rest, false)).
Definition CB_expr (ts : tokens) := exists vs c, forall n k rest,
  length ts <= n -> length ts <= k -> stop rest -> b_cont n k (ts ++ rest) = Ok (vs, c, (rest, false)).
Definition CB_body (ts : tokens) := forall blk seen code kr, kr = EndBlock \/ kr = EndTerm ->
  exists code' fin, forall n k rest, length ts < n -> length ts < k -> kind rest = kr ->
  b_block_body (X n) k blk seen code (ts ++ rest, false) = Ok (code', fin, (rest, false)).

Lemma cb_expression ts : W_expr ts -> CB_expr ts -> exists c, forall n rest, length ts < n -> stop rest ->
  b_expression n (ts ++ rest, false) = Ok (c, (rest, false)).
Proof.
  intros W [vs [c H]].
  exists (if sym_eqb (kind (tl ts)) Assign then c ++ repeat DupTop (length vs) ++ map PopVar vs else c).
  intros n rest Hn Hr. destruct n as [|n]; [lia|]. cbn [b_expression]. unfold b_expression_. cbn [fst].
  specialize (H n n rest ltac:(lia) ltac:(lia) Hr). unfold b_cont in H.
  rewrite second_assign in *; auto; try apply (expr_starts _ _ _ _ W); try apply Hr.
  destruct (sym_eqb (kind (tl ts)) Assign).
  - unfold b_assignation. destruct (b_assignments n (ts ++ rest)) as [[vs1 ts1]|x]; [|discriminate].
    cbn [bind] in *. destruct (b_evaluation (X n) n (ts1, false)) as [[c1 st1]|x]; [|discriminate].
    cbn [bind] in *. injection H as <- <- <-. reflexivity.
  - cbn [bind] in H. destruct (b_evaluation (X n) n (ts ++ rest, false)) as [[c1 st1]|x]; [|discriminate].
    cbn [bind] in H. injection H as <- <- <-. reflexivity.
Qed.
Lemma b_body_step k blk seen code ts f E : kind ts <> Exit -> kind ts <> EndBlock -> kind ts <> EndTerm ->
  b_block_body E (S k) blk seen code (ts, f) =
  (r <- E (ts, f) ;; let '(c, (ts, f)) := r in
   match accept Period ts with
   | (true, ts) => b_block_body E k blk true (code ++ c ++ [PopTop]) (ts, f)
   | (false, ts) => Ok (code ++ c, false, (ts, f))
   end).
Proof. intros H1 H2 H3. cbn [b_block_body]. destruct (kind ts); try reflexivity; contradiction. Qed.

Lemma operand_one s q : W_operand s ((Integer, t_one) :: q) -> q = [] -> s = false.
Proof.
  intros H ->. inversion H as [s1 ts1 P|]; subst; [|reflexivity].
  inversion P as [k n0 s2 Hk| | |]; subst; try reflexivity. apply name_ident in Hk. discriminate.
Qed.
Lemma operand_nonempty s ts : W_operand s ts -> exists k t q, ts = (k, t) :: q.
Proof.
  intros H. pose proof (operand_length _ _ _ _ _ H). destruct ts as [|[k t] q]; [cbn in *; lia | eauto].
Qed.
Lemma expr_after k t r : W_expr ((k, t) :: r) -> is_ident k = true -> r = [] \/
  sym_eqb (kind r) Period = false /\ sym_eqb (kind r) EndTerm = false.
Proof.
  intros W I. destruct (have_trees bare_one any_target) as [_ [_ [_ [_ [_ [HX _]]]]]].
  destruct (HX _ W) as [e He]. destruct (after_names any_operand any_args any_target) as [_ [_ [_ [_ [_ [A _]]]]]].
  specialize (A _ _ He). destruct r as [|[k2 t2] r]; [auto|]. right. cbn in A. specialize (A I). cbn.
  destruct A as [A | ->]; [|split; reflexivity]. destruct k2; try discriminate A; split; reflexivity.
Qed.

Lemma bc_complete :
  (forall s ts, W_primary s ts -> CB_primary s ts) /\
  (forall s ts, W_operand s ts -> W_operand s ts /\ CB_operand s ts) /\
  (forall s ts, W_operators s ts -> CB_operators s ts) /\
  (forall ts, W_part ts -> W_part ts /\ CB_part ts) /\
  (forall ts, W_keys ts -> CB_keys ts) /\
  (forall ts, W_expr ts -> W_expr ts /\ CB_expr ts) /\
  (forall ts, W_body ts -> CB_body ts).
Proof.
  destruct (w_shape never bare_one any_target) as [_ [_ [ShO [_ [ShK _]]]]].
  assert (ON : forall s ts rest, W_operators s ts -> is_ident (kind rest) = false ->
     is_ident (kind (ts ++ rest)) = false).
  { intros s ts rest W I. destruct (ShO _ _ W) as [-> | K]; [exact I|].
    destruct ts as [|[k3 t3] r3]; [discriminate|]. cbn in *. apply op_not_ident, K. }
  assert (KN : forall ts rest, W_keys ts -> is_ident (kind rest) = false -> is_op (kind rest) = false ->
     is_ident (kind (ts ++ rest)) = false /\ is_op (kind (ts ++ rest)) = false).
  { intros ts rest W I O. destruct (ShK _ W) as [-> | K]; [auto|].
    destruct ts as [|[k3 t3] r3]; [discriminate|]. cbn in *. rewrite K. auto. }
  apply (W_all never bare_one any_target).
  - (* a name *)
    intros k nm s Hk Hs. apply name_ident in Hk.
    exists [if text_eqb nm t_super then PushVar t_self else PushVar nm].
    intros n rest Hl. unfold b_primary. cbn [app kind ttext tl]. rewrite Hk.
    destruct (text_eqb nm t_super) eqn:T.
    + apply text_eqb_spec in T. apply Hs in T. subst s. reflexivity.
    + destruct s; [|reflexivity]. rewrite (proj1 Hs eq_refl), text_eqb_refl in T. discriminate.
  - (* parentheses *)
    intros o ts c W [_ IH]. destruct (cb_expression ts W IH) as [e He]. exists e.
    intros n rest Hl. cbn in Hl. rewrite app_length in Hl. cbn in Hl. unfold b_primary. cbn [app kind is_ident tl].
    rewrite <- app_assoc. cbn [app]. rewrite He by (try apply stop_endterm; lia). reflexivity.
  - (* a block *)
    intros o ps pts ls lts ts c Hp Hlo W IH.
    destruct (IH true false [] EndBlock (or_introl eq_refl)) as [code [fin Hb]].
    eexists. intros n rest Hl. cbn [length] in Hl. rewrite !app_length in Hl. cbn [length] in Hl.
    unfold b_primary. cbn [app kind is_ident]. unfold b_nested_block. rewrite <- !app_assoc. cbn [app].
    destruct (body_first _ _ _ ts ((EndBlock, c) :: rest) W (or_introl eq_refl)) as [B1 B2].
    rewrite (params_ok _ _ _ _ Hp) by (apply (locals_first _ _ _ Hlo); exact B2). cbn [bind].
    rewrite (locals_ok _ _ _ Hlo) by (intros _; exact B1). cbn [bind].
    rewrite (Hb n n ((EndBlock, c) :: rest)) by (auto; lia). reflexivity.
  - (* a literal *)
    intros l ts G. exists (push_lit l). intros n rest Hl. unfold b_primary.
    destruct (lit_starts _ _ G) as [S1 [_ [_ [K1 [K2 K3]]]]]. destruct (starts_kind ts rest S1) as [K _].
    rewrite K, K3, (proj1 b_literal_ok _ _ G n rest Hl). cbn [bind].
    destruct (kind ts); try reflexivity; contradiction.
  - (* a primary *)
    intros s ts W [c H]. split; [constructor; auto|]. exists c. intros n rest Hl.
    unfold b_binary_operand. rewrite H by exact Hl. reflexivity.
  - (* a unary message *)
    intros s ts k sel _ [W [c H]] Hk. split; [eapply WU_send; eauto|]. exists (c ++ [SendMsg s sel]).
    intros n rest Hl. rewrite app_length in Hl. cbn in Hl. rewrite <- app_assoc. rewrite H by lia.
    cbn. apply name_ident in Hk. rewrite Hk. destruct (b_unary_loop rest false) as [c' st].
    rewrite <- app_assoc. reflexivity.
  - (* no operator *)
    intros s. exists [], s. intros n k rest _ Hk I O. destruct k; [cbn in Hk; lia|]. cbn. rewrite O. reflexivity.
  - (* an operator *)
    intros s k op s' ts ts' Hk _ [W1 [a H1]] B1 W2 [c2 [f2 H2]].
    destruct (operand_nonempty _ _ W1) as [k1 [t1 [q1 E1]]].
    set (inc := (text_eqb op t_plus || text_eqb op t_minus) && negb s
     && sym_eqb k1 Integer && text_eqb t1 t_one).
    exists ((if inc then [if text_eqb op t_plus then IncTop else DecTop] else a ++ [SendMsg s op]) ++ c2), f2.
    intros n kk rest Hl Hkk I O. cbn [length] in Hl, Hkk. rewrite app_length in Hl, Hkk.
    destruct kk as [|kk]; [lia|]. cbn [b_binary_loop app fst kind]. apply operator_op in Hk. rewrite Hk.
    unfold b_binary_message, binary_selector. cbn [kind ttext tl]. rewrite Hk. cbn [bind].
    rewrite <- app_assoc.
    replace (kind (ts ++ ts' ++ rest)) with k1 by (rewrite E1; reflexivity).
    replace (ttext (ts ++ ts' ++ rest)) with t1 by (rewrite E1; reflexivity).
    fold inc. destruct inc eqn:T; unfold inc in T.
    + apply andb_true_iff in T. destruct T as [T T3]. apply andb_true_iff in T. destruct T as [T T2].
      apply andb_true_iff in T. destruct T as [T0 T1]. apply sym_eqb_spec in T2. apply text_eqb_spec in T3. subst k1 t1 ts.
      assert (Q : q1 = []).
      { apply B1 with (r := q1); auto.
        - destruct s; [discriminate | reflexivity].
        - apply orb_true_iff in T0. destruct T0 as [T0 | T0]; apply text_eqb_spec in T0; auto. }
      subst q1. pose proof (operand_one _ _ W1 eq_refl) as Hs'. subst s'. cbn [app tl bind].
      rewrite H2 by (auto; lia). reflexivity.
    + rewrite H1 by lia. rewrite b_unary_loop_stop by (eapply ON; eauto). cbn [bind].
      rewrite H2 by (auto; lia). cbn [bind]. rewrite app_nil_r. reflexivity.
  - (* a part *)
    intros s ts ts' _ [W1 [a H1]] W2 [c2 [f2 H2]]. split; [econstructor; eauto|].
    exists (a ++ c2), f2. intros n k rest Hl Hk I O. rewrite app_length in Hl, Hk.
    pose proof (operand_length _ _ _ _ _ W1) as L1. rewrite <- app_assoc, H1 by lia.
    rewrite b_unary_loop_stop by (eapply ON; eauto). cbn [bind]. rewrite H2 by (auto; lia).
    cbn [bind]. rewrite app_nil_r. reflexivity.
  - (* no keyword *)
    exists [], []. intros n k rest _ Hk _ _ K. destruct k; [cbn in Hk; lia|]. cbn.
    destruct (kind rest); try reflexivity. contradiction.
  - (* a keyword *)
    intros key ts ts' _ [W1 [a [f1 H1]]] W2 [sel [c2 H2]]. exists (key ++ sel), (a ++ c2).
    intros n k rest Hl Hk I O K. cbn [length] in Hl, Hk. rewrite app_length in Hl, Hk.
    destruct k as [|k]; [lia|]. cbn [b_keyword_loop app kind]. unfold keyword, expect. cbn [kind tl ttext].
    rewrite sym_eqb_refl. cbn [bind]. rewrite <- app_assoc.
    destruct (KN _ _ W2 I O) as [N1 N2]. rewrite b_formula_alt by lia.
    rewrite H1 by (auto; lia). cbn [bind]. rewrite H2 by (auto; lia). reflexivity.
  - (* an evaluation *)
    intros ts ts' _ [W1 [a [f1 H1]]] W2 [sel [c2 H2]]. split; [constructor; auto|].
    assert (KM : exists c3, forall n rest, length ts' <= n ->
       is_ident (kind rest) = false -> is_op (kind rest) = false -> kind rest <> Keyword ->
       match kind (ts' ++ rest) with
       | Keyword => r <- b_keyword_message (X n) n (ts' ++ rest, f1) ;; let '(c', st) := r in Ok (a ++ c', st)
       | _ => Ok (a, (ts' ++ rest, f1))
       end = Ok (c3, (rest, match ts' with [] => f1 | _ => false end))).
    { destruct ts' as [|[k3 t3] r3] eqn:E3.
      - exists a. intros n rest _ _ _ K. cbn [app]. destruct (kind rest); try reflexivity. contradiction.
      - rewrite <- E3 in *.
        destruct (ShK _ W2) as [K | K]; [subst ts'; discriminate|]. rewrite E3 in K. cbn in K. subst k3.
        exists (a ++ c2 ++ [SendMsg f1 sel]). intros n rest Hl I O K.
        specialize (H2 n (S n) rest Hl ltac:(lia) I O K). cbn [b_keyword_loop] in H2.
        replace (kind (ts' ++ rest)) with Keyword in * by (rewrite E3; reflexivity).
        unfold b_keyword_message. destruct (keyword (ts' ++ rest)) as [[s1 r1]|x]; [|discriminate].
        cbn [bind] in *. destruct (b_formula (X n) n (r1, false)) as [[c4 st4]|x]; [|discriminate].
        cbn [bind] in *. destruct (b_keyword_loop (X n) n n st4) as [[[sel5 c5] st5]|x]; [|discriminate].
        cbn [bind] in *. injection H2 as <- <- ->. rewrite <- app_assoc. reflexivity. }
    destruct KM as [c3 KM]. exists [], c3. intros n k rest Hl Hk [R1 [R2 [R3 R4]]].
    pose proof (part_length _ _ _ _ W1) as L1. rewrite app_length in Hl, Hk.
    destruct (part_starts _ _ _ _ W1) as [S1 S2]. unfold b_cont.
    assert (NA : sym_eqb (kind (tl ((ts ++ ts') ++ rest))) Assign = false).
    { rewrite <- app_assoc, second_assign; auto.
      - destruct S1 as [k1 [t1 [q1 [-> _]]]]. destruct q1 as [|[k2 t2] q1]; [reflexivity|]. cbn in S2 |- *.
        apply sym_eqb_neq, S2.
      - destruct (ShK _ W2) as [-> | K]; [exact R4|]. destruct ts' as [|[k3 t3] r3]; [discriminate|]. cbn in *.
        congruence. }
    rewrite NA. cbn [bind]. rewrite b_evaluation_alt by lia. rewrite <- app_assoc.
    destruct (KN _ _ W2 R1 R2) as [N1 N2]. rewrite H1 by (auto; lia). cbn [bind fst].
    rewrite KM by (auto; lia). reflexivity.
  - (* an assignment *)
    intros k v a ts Hk _ _ [W [vs [e He]]]. split; [constructor; auto; exact I|].
    exists (v :: vs), e. intros n kk rest Hl Hkk Hr. cbn [length] in Hl, Hkk.
    unfold b_cont. cbn [app tl kind]. rewrite sym_eqb_refl. destruct kk as [|kk]; [lia|].
    cbn [b_assignments kind]. apply name_ident in Hk. rewrite Hk.
    unfold expect. cbn [kind ttext tl]. rewrite sym_eqb_refl. cbn [bind].
    specialize (He n kk rest ltac:(lia) ltac:(lia) Hr). unfold b_cont in He.
    destruct (if sym_eqb (kind (tl (ts ++ rest))) Assign then b_assignments kk (ts ++ rest) else Ok ([], ts ++ rest))
      as [[vs1 ts1]|x]; [|discriminate]. cbn [bind] in *.
    destruct (b_evaluation (X n) n (ts1, false)) as [[c1 st1]|x]; [|discriminate]. cbn [bind] in *.
    injection He as <- <- <-. reflexivity.
  - (* nothing *)
    intros blk seen code kr Hkr. destruct Hkr as [-> | ->]; do 2 eexists; intros n k rest _ Hk Hr;
      (destruct k; [cbn in Hk; lia|]); cbn [b_block_body app]; rewrite Hr; reflexivity.
  - (* the last statement *)
    intros ts _ [W IH] blk seen code kr Hkr. destruct (cb_expression ts W IH) as [e He].
    exists (code ++ e), false. intros n k rest Hl Hk Hr. destruct k as [|k]; [lia|].
    pose proof (expr_starts _ _ _ _ W) as S1. destruct (expr_not_end ts rest S1) as [E1 [E2 [E3 _]]].
    assert (Hr' : kind rest = EndBlock \/ kind rest = EndTerm) by (rewrite Hr; exact Hkr).
    rewrite b_body_step by assumption. rewrite He by (try apply stop_end; auto). cbn [bind].
    unfold accept. rewrite sym_eqb_neq by (destruct Hr' as [-> | ->]; discriminate). reflexivity.
  - (* a statement and a period *)
    intros ts p ts' _ [W IH] _ IH2 blk seen code kr Hkr. destruct (cb_expression ts W IH) as [e He].
    destruct (IH2 blk true (code ++ e ++ [PopTop]) kr Hkr) as [code' [fin Hb]].
    exists code', fin. intros n k rest Hl Hk Hr.
    rewrite app_length in Hl, Hk. cbn [length] in Hl, Hk. destruct k as [|k]; [lia|].
    rewrite <- app_assoc. cbn [app]. pose proof (expr_starts _ _ _ _ W) as S1.
    destruct (expr_not_end ts ((Period, p) :: ts' ++ rest) S1) as [E1 [E2 [E3 _]]].
    rewrite b_body_step by assumption. rewrite He by (try apply stop_period; lia). cbn [bind].
    unfold accept. cbn [kind]. rewrite sym_eqb_refl. cbn [tl]. apply Hb; auto; lia.
  - intros ts ts' _ _ H. destruct H.
  - (* a return *)
    intros x ts dot _ [W IH] Hd blk seen code kr Hkr. destruct (cb_expression ts W IH) as [e He].
    set (kd := match dot with [] => kr | _ => Period end).
    set (short := negb blk && sym_eqb (kind ts) Identifier && text_eqb (ttext ts) t_self
       && match ts with [_] => sym_eqb kd Period || sym_eqb kd EndTerm | _ => false end).
    exists (if short then code ++ [RetSelf] else code ++ e ++ [if blk then RetNonLocal else RetLocal]), true.
    intros n k rest Hl Hk Hr. cbn [length] in Hl, Hk. rewrite app_length in Hl, Hk. destruct k as [|k]; [lia|].
    cbn [b_block_body app kind tl]. rewrite <- app_assoc.
    assert (Hr' : kind rest = EndBlock \/ kind rest = EndTerm) by (rewrite Hr; exact Hkr).
    assert (KD : kind (dot ++ rest) = kd).
    { unfold kd. destruct Hd as [-> | [p ->]]; [exact Hr | reflexivity]. }
    assert (AC : snd (accept Period (dot ++ rest)) = rest).
    { destruct Hd as [-> | [p ->]]; cbn [app].
      - apply accept_no_period. destruct Hr' as [-> | ->]; discriminate.
      - unfold accept. cbn [kind]. rewrite sym_eqb_refl. reflexivity. }
    assert (ST : stop (dot ++ rest)).
    { destruct Hd as [-> | [p ->]]; [apply stop_end, Hr' | apply stop_period]. }
    unfold b_result.
    assert (SH : negb blk && sym_eqb (kind (ts ++ dot ++ rest)) Identifier && text_eqb (ttext (ts ++ dot ++ rest)) t_self
       && (sym_eqb (kind (tl (ts ++ dot ++ rest))) Period || sym_eqb (kind (tl (ts ++ dot ++ rest))) EndTerm) = short).
    { pose proof (expr_length _ _ _ _ W) as L1. destruct ts as [|[k1 t1] r1]; [cbn in L1; lia|].
      unfold short. cbn [app kind ttext tl]. destruct (sym_eqb k1 Identifier) eqn:KI.
      - destruct (expr_after _ _ _ W) as [-> | [A B]].
        + apply sym_eqb_spec in KI. subst k1. reflexivity.
        + cbn [app]. rewrite KD. reflexivity.
        + destruct r1 as [|[k2 t2] r1].
          * cbn [app]. rewrite KD. reflexivity.
          * cbn [app kind] in *. rewrite A, B. cbn [orb]. rewrite !andb_false_r. reflexivity.
      - rewrite !andb_false_r. reflexivity. }
    rewrite SH. destruct short eqn:HS.
    + unfold short in HS. apply andb_true_iff in HS. destruct HS as [_ HS].
      destruct ts as [|t1 [|t2 r1]]; try discriminate. cbn [app tl]. rewrite AC. reflexivity.
    + rewrite He by (auto; lia). cbn [bind]. rewrite AC. reflexivity.
Qed.

Lemma b_method_complete ts : bc_method_source ts -> exists m, forall n rest, length ts < n ->
  b_method n (ts ++ rest, false) = Ok (m, (rest, false)).
Proof.
  intros H. destruct H as [sel ps pts eq o ls lts ts c Hp Hlo W | sel ps pts eq p Hp].
  - destruct bc_complete as [_ [_ [_ [_ [_ [_ CB]]]]]].
    destruct (CB _ W false false [] EndTerm (or_intror eq_refl)) as [code [fin Hb]].
    eexists. intros n rest Hl. rewrite app_length in Hl. cbn [length] in Hl. rewrite !app_length in Hl.
    cbn [length] in Hl. unfold b_method. rewrite <- app_assoc. cbn [app].
    rewrite (pattern_ok _ _ _ _ Hp) by discriminate. cbn [bind].
    unfold expect at 1. cbn [kind tl]. rewrite sym_eqb_refl. cbn [bind kind].
    unfold expect at 1. cbn [kind tl]. rewrite sym_eqb_refl. cbn [bind].
    rewrite <- !app_assoc. cbn [app].
    destruct (body_first _ _ _ ts ((EndTerm, c) :: rest) W (or_intror eq_refl)) as [B1 _].
    rewrite (locals_ok _ _ _ Hlo) by (intros _; exact B1). cbn [bind].
    rewrite (Hb n n ((EndTerm, c) :: rest)) by (auto; lia). cbn [bind].
    unfold expect. cbn [kind tl]. rewrite sym_eqb_refl. reflexivity.
  - eexists. intros n rest Hl. unfold b_method. rewrite <- app_assoc. cbn [app].
    rewrite (pattern_ok _ _ _ _ Hp) by discriminate. cbn [bind].
    unfold expect at 1. cbn [kind tl]. rewrite sym_eqb_refl. cbn [bind kind tl]. reflexivity.
Qed.
End BcComplete.

(** * Classes *)
Section ClassComplete.
Variable nx : tokens -> Prop.
Variable oo : bool -> text -> tokens -> Prop.
Variable tok : text -> Prop.
Context {M : Type}.
Variable meth : nat -> pstate -> res (M * pstate).
Variable flag : bool -> Prop.
Hypothesis meth_ok : forall ts f, flag f -> W_method nx oo tok ts -> exists m f', flag f' /\
  forall n rest, length ts < n -> meth n (ts ++ rest, f) = Ok (m, (rest, f')).

Lemma w_method_kind ts : W_method nx oo tok ts ->
  (forall r, kind (ts ++ r) = kind ts) /\ starts_pattern (kind ts) = true /\ 1 <= length ts.
Proof.
  intros H. destruct H as [? ? pts ? ? ? ? ? ? G|? ? pts ? ? G]; destruct (pattern_kind _ _ _ G) as [A B];
    (destruct pts as [|[k t] q]; [cbn in B; lia|]); cbn; repeat split; auto; lia.
Qed.
Lemma w_methods_kind ts : W_methods nx oo tok ts ->
  ts = [] \/ (forall r, kind (ts ++ r) = kind ts) /\ 1 <= length ts.
Proof.
  intros H. destruct H; [auto|]. right. destruct (w_method_kind _ H) as [A [B C]].
  destruct ts as [|[k t] q]; [cbn in C; lia|]. cbn. split; auto. lia.
Qed.
Lemma methods_complete ts : W_methods nx oo tok ts -> forall f, flag f -> exists ms f', flag f' /\
  forall n k rest, length ts < n -> length ts < k -> starts_pattern (kind rest) = false ->
  methods (meth n) k (ts ++ rest, f) = Ok (ms, (rest, f')).
Proof.
  induction 1 as [|ts ts' Hm Hms IH]; intros f Hf.
  - exists [], f. split; [exact Hf|]. intros n k rest _ Hk Hr. destruct k; [cbn in Hk; lia|].
    cbn [methods app fst]. rewrite Hr. reflexivity.
  - destruct (meth_ok _ f Hf Hm) as [m [f1 [F1 H1]]]. destruct (IH f1 F1) as [ms [f2 [F2 H2]]].
    exists (m :: ms), f2. split; [exact F2|]. intros n k rest Hl Hk Hr.
    rewrite app_length in Hl, Hk. destruct (w_method_kind _ Hm) as [A [B C]]. destruct k; [lia|].
    rewrite <- app_assoc. cbn [methods fst]. rewrite A, B, H1 by lia. cbn [bind]. rewrite H2 by (auto; lia). reflexivity.
Qed.
Lemma members_complete ts : W_members nx oo tok ts -> forall f, flag f -> exists fs ms f', flag f' /\
  forall n k rest, length ts < n -> length ts < k -> starts_pattern (kind rest) = false ->
  (r <- block_locals (ts ++ rest) ;; let '(fs, ts) := r in
   r <- methods (meth n) k (ts, f) ;; let '(ms, st) := r in Ok (fs, ms, st)) = Ok (fs, ms, (rest, f')).
Proof.
  intros H f Hf. destruct H as [fs fts mts Hl Hm Hb]. destruct (methods_complete _ Hm f Hf) as [ms [f' [F H]]].
  exists fs, ms, f'. split; [exact F|]. intros n k rest L1 L2 Hr. rewrite app_length in L1, L2.
  rewrite <- app_assoc, (locals_ok _ _ _ Hl).
  - cbn [bind]. rewrite H by (auto; lia). reflexivity.
  - intros E. destruct (w_methods_kind _ Hm) as [-> | [K _]].
    + cbn. intros K. rewrite K in Hr. discriminate.
    + rewrite K. auto.
Qed.
Lemma class_complete ts f : flag f -> W_class nx oo tok ts -> exists c f',
  forall n rest, length ts < n -> class_definition (meth n) n (ts ++ rest, f) = Ok (c, (rest, f')).
Proof.
  intros Hf H. destruct H as [name eq sts o ts side c Hs Hm Hside].
  destruct (members_complete _ Hm f Hf) as [fs [ms [f1 [F1 H1]]]].
  assert (HS : exists cfs cms f2, forall n rest, length side < n ->
     match kind (side ++ (EndTerm, c) :: rest) with
     | Separator =>
         r <- block_locals (tl (side ++ (EndTerm, c) :: rest)) ;; let '(cfs, ts) := r in
         r <- methods (meth n) n (ts, f1) ;; let '(cms, st) := r in Ok (cfs, cms, st)
     | _ => Ok ([], [], (side ++ (EndTerm, c) :: rest, f1))
     end = Ok (cfs, cms, ((EndTerm, c) :: rest, f2))
     /\ starts_pattern (kind (side ++ (EndTerm, c) :: rest)) = false).
  { destruct Hside as [|s ts' Hm'].
    - exists [], [], f1. intros n rest _. split; reflexivity.
    - destruct (members_complete _ Hm' f1 F1) as [cfs [cms [f2 [_ H2]]]]. exists cfs, cms, f2.
      intros n rest L. cbn [length] in L. cbn [app kind tl]. split; [|reflexivity]. apply H2; [lia | lia | reflexivity]. }
  destruct HS as [cfs [cms [f2 HS]]].
  exists {| c_name := name;
            c_super := match sts with (_, s) :: _ => Some s | [] => None end;
            c_fields := fs; c_methods := ms; c_class_fields := cfs; c_class_methods := cms |}, f2.
  intros n rest Hl. cbn [length] in Hl. rewrite app_length in Hl. cbn [length] in Hl. rewrite !app_length in Hl.
  cbn [length] in Hl. destruct (HS n rest ltac:(lia)) as [HS1 HS2].
  specialize (H1 n n (side ++ (EndTerm, c) :: rest) ltac:(lia) ltac:(lia) HS2).
  unfold class_definition. cbn [app ttext]. unfold expect at 1. cbn [kind tl]. rewrite sym_eqb_refl. cbn [bind].
  unfold expect at 1. cbn [kind tl]. rewrite sym_eqb_refl. cbn [bind].
  rewrite <- app_assoc. cbn [app]. rewrite <- !app_assoc. cbn [app].
  assert (SUP : match kind (sts ++ (NewTerm, o) :: ts ++ side ++ (EndTerm, c) :: rest) with
     | Identifier => (Some (ttext (sts ++ (NewTerm, o) :: ts ++ side ++ (EndTerm, c) :: rest)),
                      tl (sts ++ (NewTerm, o) :: ts ++ side ++ (EndTerm, c) :: rest))
     | _ => (None, sts ++ (NewTerm, o) :: ts ++ side ++ (EndTerm, c) :: rest)
     end = (match sts with (_, s) :: _ => Some s | [] => None end, (NewTerm, o) :: ts ++ side ++ (EndTerm, c) :: rest)).
  { destruct Hs as [-> | [s ->]]; reflexivity. }
  rewrite SUP. unfold expect at 1. cbn [kind tl]. rewrite sym_eqb_refl. cbn [bind].
  destruct (block_locals (ts ++ side ++ (EndTerm, c) :: rest)) as [[fs1 ts1]|x]; [|discriminate].
  cbn [bind] in *. destruct (methods (meth n) n (ts1, f)) as [[ms1 [ts2 f3]]|x]; [|discriminate].
  cbn [bind] in *. injection H1 as -> -> -> ->. rewrite HS1. cbn [bind].
  unfold expect. cbn [kind tl]. rewrite sym_eqb_refl. reflexivity.
Qed.
End ClassComplete.

(** * Sources of the language in front of each parser *)
Lemma operand_after_one nx oo tk s q : W_operand nx oo tk s ((Integer, t_one) :: q) ->
  q = [] \/ exists k m r, q = (k, m) :: r /\ name_token k.
Proof.
  intros H. remember ((Integer, t_one) :: q) as ts eqn:E. revert q E.
  induction H as [s ts P | s ts k sel H IH Hk]; intros q E.
  - left. destruct P as [k n s Hk| | |l ts G].
    + injection E as -> _ _. apply name_ident in Hk. discriminate.
    + discriminate.
    + discriminate.
    + destruct G; try discriminate; injection E; auto.
  - destruct ts as [|[k1 t1] r1].
    + apply operand_length in H. cbn in H. lia.
    + injection E as -> -> <-. destruct (IH r1 eq_refl) as [-> | [k2 [m2 [r2 [-> K]]]]].
      * right. exists k, sel, []. auto.
      * right. exists k2, m2, (r2 ++ [(k, sel)]). auto.
Qed.
Lemma no_message_app a b : no_message_to_one (a ++ b) -> no_message_to_one a /\ no_message_to_one b.
Proof.
  intros H. split; intros before k op k' m after ->.
  - apply (H before k op k' m (after ++ b)). rewrite <- app_assoc. reflexivity.
  - apply (H (a ++ before) k op k' m after). rewrite <- app_assoc. reflexivity.
Qed.
Lemma no_assignment_app a b : no_assignment_to_self (a ++ b) -> no_assignment_to_self a /\ no_assignment_to_self b.
Proof.
  intros H. split; intros before k v c after ->.
  - apply (H before k v c (after ++ b)). rewrite <- app_assoc. reflexivity.
  - apply (H (a ++ before) k v c after). rewrite <- app_assoc. reflexivity.
Qed.
Lemma one_ok s k op s' ts r : no_message_to_one ((k, op) :: ts ++ r) ->
  W_operand never every_operand any_target s' ts -> every_operand s op ts -> bare_one s op ts.
Proof.
  intros H W _ _ Hop q ->. destruct (operand_after_one _ _ _ _ _ W) as [E | [k' [m [q' [-> K]]]]]; [exact E|].
  exfalso. exact (H [] k op k' m (q' ++ r) eq_refl Hop K).
Qed.
Lemma source_bc ts : source ts -> no_message_to_one ts -> bc_source ts.
Proof.
  apply (weaken_class never never every_operand bare_one any_target any_target no_message_to_one no_message_app); auto.
  exact one_ok.
Qed.
Lemma method_source_bc ts : method_source ts -> no_message_to_one ts -> bc_method_source ts.
Proof.
  apply (weaken_method never never every_operand bare_one any_target any_target no_message_to_one no_message_app); auto.
  exact one_ok.
Qed.
Lemma source_ast wo ts : W_class never wo any_target ts -> no_assignment_to_self ts -> ast_source ts.
Proof.
  apply (weaken_class never fresh_start wo every_operand any_target assignable no_assignment_to_self
    no_assignment_app); unfold never, every_operand; auto; try tauto.
  intros k v a r H _. exact (H [] k v a r eq_refl).
Qed.
Lemma method_source_ast wo ts : W_method never wo any_target ts -> no_assignment_to_self ts -> ast_method_source ts.
Proof.
  apply (weaken_method never fresh_start wo every_operand any_target assignable no_assignment_to_self
    no_assignment_app); unfold never, every_operand; auto; try tauto.
  intros k v a r H _. exact (H [] k v a r eq_refl).
Qed.
Lemma bc_source_source ts : bc_source ts -> source ts.
Proof.
  intros H. apply (weaken_class never never bare_one every_operand any_target any_target (fun _ => True)) in H; unfold every_operand; auto.
Qed.
Lemma bc_method_source_source ts : bc_method_source ts -> method_source ts.
Proof.
  intros H. apply (weaken_method never never bare_one every_operand any_target any_target (fun _ => True)) in H; unfold every_operand; auto.
Qed.

(** * Entry points *)
Lemma ast_class_wp ts : wp (ast_class ts) (fun '(_, r) => exists pre, ts = pre ++ r /\ ast_source pre).
Proof.
  unfold ast_class. eapply wp_bind.
  - apply (class_wp fresh_start every_operand assignable (S (length ts)) _ (fun _ => True)); auto.
    intros ts' f _ Hl. eapply wp_weaken; [apply a_method_wp; exact Hl|]. intros [m [r f']] [pre [A B]]. eauto.
  - intros [c [r f]] H. exact H.
Qed.
Lemma bc_class_wp ts : wp (bc_class ts) (fun '(_, r) => exists pre, ts = pre ++ r /\ bc_source pre).
Proof.
  unfold bc_class. eapply wp_bind.
  - apply (class_wp never bare_one any_target (S (length ts)) _ (fun f => f = false)); auto.
    intros ts' f -> Hl. apply b_method_wp, Hl.
  - intros [c [r f]] H. exact H.
Qed.
Lemma ast_method_wp ts : wp (ast_method ts) (fun '(_, r) => exists pre, ts = pre ++ r /\ ast_method_source pre).
Proof. unfold ast_method. eapply wp_bind; [apply a_method_wp; lia|]. intros [c [r f]] H. exact H. Qed.
Lemma bc_method_wp ts : wp (bc_method_ ts) (fun '(_, r) => exists pre, ts = pre ++ r /\ bc_method_source pre).
Proof.
  unfold bc_method_. eapply wp_bind; [apply b_method_wp; lia|]. intros [c [r f]] [pre [A [B _]]]. cbn. eauto.
Qed.
Lemma ast_class_complete ts : ast_source ts -> exists c, forall rest, ast_class (ts ++ rest) = Ok (c, rest).
Proof.
  intros H. destruct (class_complete fresh_start every_operand assignable a_method (fun _ => True)) with (ts := ts) (f := false)
    as [c [f' Hc]]; auto.
  - intros ts' f _ Hm. destruct (a_method_complete ts' f Hm) as [m [f' Hf]]. eauto.
  - exists c. intros rest. unfold ast_class. rewrite Hc by (rewrite app_length; lia). reflexivity.
Qed.
Lemma bc_class_complete ts : bc_source ts -> exists c, forall rest, bc_class (ts ++ rest) = Ok (c, rest).
Proof.
  intros H. destruct (class_complete never bare_one any_target b_method (fun f => f = false)) with (ts := ts) (f := false)
    as [c [f' Hc]]; auto.
  - intros ts' f -> Hm. destruct (b_method_complete ts' Hm) as [m Hf]. eauto.
  - exists c. intros rest. unfold bc_class. rewrite Hc by (rewrite app_length; lia). reflexivity.
Qed.
Lemma ast_method_complete ts : ast_method_source ts -> exists m, forall rest, ast_method (ts ++ rest) = Ok (m, rest).
Proof.
  intros H. destruct (a_method_complete ts false H) as [m [f' Hm]]. exists m. intros rest. unfold ast_method.
  rewrite Hm by (rewrite app_length; lia). reflexivity.
Qed.
Lemma bc_method_complete ts : bc_method_source ts -> exists m, forall rest, bc_method_ (ts ++ rest) = Ok (m, rest).
Proof.
  intros H. destruct (b_method_complete ts H) as [m Hm]. exists m. intros rest. unfold bc_method_.
  rewrite Hm by (rewrite app_length; lia). reflexivity.
Qed.

(** A parser that accepts exactly the lists that start with a [P]. *)
Section Recogniser.
Context {A : Type}.
Variable parse : tokens -> res (A * tokens).
Variable P : tokens -> Prop.
Hypothesis Hsound : forall ts, wp (parse ts) (fun '(_, r) => exists pre, ts = pre ++ r /\ P pre).
Hypothesis Hcomplete : forall ts, P ts -> exists c, forall rest, parse (ts ++ rest) = Ok (c, rest).
Lemma rec_ends ts : (exists c rest, parse ts = Ok (c, rest)) \/ parse ts = Err PyException.
Proof.
  specialize (Hsound ts). destruct (parse ts) as [[c r]|e]; cbn in Hsound; [left; eauto | right; congruence].
Qed.
Lemma rec_accepts ts rest : (exists c, parse ts = Ok (c, rest)) <-> exists pre, ts = pre ++ rest /\ P pre.
Proof.
  split.
  - intros [c E]. specialize (Hsound ts). rewrite E in Hsound. exact Hsound.
  - intros [pre [-> H]]. destruct (Hcomplete _ H) as [c Hc]. eauto.
Qed.
Lemma rec_rest ts c rest : parse ts = Ok (c, rest) ->
  exists pre, ts = pre ++ rest /\ P pre /\ forall rest', parse (pre ++ rest') = Ok (c, rest').
Proof.
  intros E. pose proof (Hsound ts) as H. rewrite E in H. destruct H as [pre [-> H]]. exists pre.
  split; [reflexivity|]. split; [exact H|]. destruct (Hcomplete _ H) as [c' Hc].
  pose proof (Hc rest) as Hc'. rewrite E in Hc'. injection Hc' as ->. exact Hc.
Qed.
Lemma rec_refuses ts : (forall pre rest, ts = pre ++ rest -> ~ P pre) <-> parse ts = Err PyException.
Proof.
  split.
  - intros H. destruct (rec_ends ts) as [[c [rest E]]|E]; [|exact E]. exfalso.
    destruct (rec_rest _ _ _ E) as [pre [E1 [E2 _]]]. exact (H pre rest E1 E2).
  - intros E pre rest -> H. destruct (Hcomplete _ H) as [c Hc]. rewrite Hc in E. discriminate.
Qed.
Lemma rec_one_end p r p' r' : P p -> P p' -> p ++ r = p' ++ r' -> p = p'.
Proof.
  intros H H' E. destruct (Hcomplete _ H) as [c Hc]. destruct (Hcomplete _ H') as [c' Hc'].
  specialize (Hc r). specialize (Hc' r'). rewrite E, Hc' in Hc. injection Hc as _ ->.
  apply app_inv_tail in E. exact E.
Qed.
End Recogniser.
