(** Symbols, globals and strings: properties C27 to C31. *)
From Coq Require Import ZArith Bool String Ascii List Lia Floats.SpecFloat.
From Verif Require Import Base TxtModel TxtSpec TxtProofs.
Import ListNotations.
Open Scope Z_scope.
Open Scope list_scope.

(** C27: in any sequence of requests for symbols, two requests answer the same object
    exactly when they ask for the same name. *)
Theorem C27_symbols_unique : forall names is t a b na nb ia ib,
  intern empty_symtab names = (is, t) ->
  nth_error names a = Some na -> nth_error names b = Some nb ->
  nth_error is a = Some ia -> nth_error is b = Some ib ->
  (ia = ib <-> na = nb).
Proof.
  intros names is t a b na nb ia ib E A B IA IB.
  destruct (intern_ok _ _ _ _ empty_ok E) as ([_ I] & _ & N & _).
  destruct (N _ _ A) as (x & X & XA), (N _ _ B) as (y & Y & YB).
  assert (x = ia) by congruence. assert (y = ib) by congruence. subst.
  split; [intros ->; eauto|intros ->; congruence].
Qed.
Print Assumptions C27_symbols_unique.

(** Every request is answered, and the symbol answered keeps the name asked for. *)
Theorem C27_symbols_keep_name : forall names is t a na,
  intern empty_symtab names = (is, t) -> nth_error names a = Some na ->
  exists i, nth_error is a = Some i /\ prim_as_string t i = Some na.
Proof.
  intros names is t a na E A. destruct (intern_ok _ _ _ _ empty_ok E) as ([_ I] & _ & N & _).
  destruct (N _ _ A) as (i & X & XA). exists i. split; auto. unfold prim_as_string.
  rewrite (find_assoc _ na i); auto.
  - intros s' j H ->. eauto.
  - pose proof (intern_nodup names empty_symtab) as D. rewrite E in D. apply D. constructor.
Qed.
Print Assumptions C27_symbols_keep_name.

Example C27_nonvacuous :
  let names := ["at:put:"; "foo"; "at:put:"; "bar"; "foo"]%string in
  exists is t, intern empty_symtab names = (is, t) /\ length is = 5%nat
    /\ nth_error is 0 = nth_error is 2 /\ nth_error is 1 = nth_error is 4 /\ nth_error is 0 <> nth_error is 1.
Proof. do 2 eexists. split; [vm_compute; reflexivity|]. repeat split; discriminate. Qed.

(** C28: the number kept with a selector counts the receiver and the arguments. *)
Theorem C28_arity_from_spelling : forall s,
  (spelled_with_operators s -> number_of_signature_arguments s = (1 + 1)%nat)
  /\ (~ spelled_with_operators s -> number_of_signature_arguments s = (1 + colons s)%nat).
Proof.
  intros s. rewrite <- is_binary_spec. unfold number_of_signature_arguments.
  destruct (is_binary_signature s); split; intros H; try congruence; auto.
  rewrite count_colons_spec. cbn [Nat.add]. lia.
Qed.
Print Assumptions C28_arity_from_spelling.

Example C28_nonvacuous :
  spelled_with_operators "<=" /\ ~ spelled_with_operators "at:put:" /\ colons "at:put:" = 2%nat
  /\ number_of_signature_arguments "at:put:" = 3%nat /\ number_of_signature_arguments "<=" = 2%nat
  /\ number_of_signature_arguments "size" = 1%nat.
Proof.
  split; [apply is_binary_spec; reflexivity|]. split; [rewrite <- is_binary_spec; discriminate|].
  repeat split.
Qed.

(** C29: the globals after a history [l] of assignments, class loads, queries, creation
    of read sites and their execution. *)
Definition globals_after (l : list gstep) : globals := fst (grun ginit l).
Definition sites_after (l : list gstep) : list (string * gnode) := snd (grun ginit l).
Definition assigned (l : list gstep) (n : string) : option value := value_of n None (ops_of l).

(** global: answers the value, nil if there is none. *)
Theorem C29_global_primitive : forall l n,
  prim_global (globals_after l) n = match assigned l n with Some v => v | None => VNil end.
Proof. intros. destruct (grun_inv l) as (_ & V & _). unfold prim_global, globals_after. rewrite V. auto. Qed.
Print Assumptions C29_global_primitive.

(** The bytecode interpreter's read. *)
Theorem C29_bytecode_read : forall l n,
  bc_push_global (globals_after l) n = match assigned l n with Some v => Value v | None => Unknown end.
Proof. intros. destruct (grun_inv l) as (_ & V & _). unfold bc_push_global, globals_after. rewrite V. auto. Qed.
Print Assumptions C29_bytecode_read.

(** A cached read in a method of the AST interpreter, or in a trivial method, answers the
    value if there is one.  If there is none it reports the name as unknown only if no
    load of a class with that name has failed before. *)
Theorem C29_cached_read_partial : forall l i n s,
  nth_error (sites_after l) i = Some (n, s) ->
  let ast := fst (fst (ast_global_read (globals_after l) n s)) in
  let triv := fst (fst (trivial_global_read (globals_after l) n s)) in
  ast = triv
  /\ (forall v, ast = Value v <-> assigned l n = Some v)
  /\ (ast = Unknown <-> assigned l n = None /\ ~ load_failed n (ops_of l))
  /\ (ast = Leak <-> assigned l n = None /\ load_failed n (ops_of l)).
Proof.
  intros l i n s N ast triv. split; [reflexivity|].
  destruct (grun_inv l) as (_ & V & H & S0).
  destruct (ast_read_ok (globals_after l) n s) as (s' & R & _). { intros j E. eapply S0; eauto. }
  unfold ast. rewrite R. cbn [fst]. unfold globals_after. rewrite V. fold (assigned l n).
  specialize (H n). destruct (value_of n None (ops_of l)) as [v|] eqn:E.
  - assert (assigned l n = Some v) as -> by exact E. split; [|split].
    + intros v'. split; congruence.
    + split; [discriminate|]. intros [X _]; discriminate.
    + split; [discriminate|]. intros [X _]; discriminate.
  - assert (assigned l n = None) as -> by exact E.
    destruct (has_global (fst (grun ginit l)) n); (split; [intros v'; split; discriminate|]).
    + destruct H as [H _]. specialize (H eq_refl). destruct H as [H|H]; [congruence|].
      split; [split; [discriminate|tauto]|tauto].
    + assert (~ load_failed n (ops_of l)). { intros F. destruct H as [_ H]. discriminate H. auto. }
      split; [tauto|]. split; [discriminate|]. tauto.
Qed.
Print Assumptions C29_cached_read_partial.

(** A trivial method starts with no cell; the same holds for its first read. *)
Theorem C29_first_read_partial : forall l n,
  let r := fst (fst (trivial_global_read (globals_after l) n GUninit)) in
  (forall v, r = Value v <-> assigned l n = Some v)
  /\ (r = Unknown <-> assigned l n = None /\ ~ load_failed n (ops_of l)).
Proof.
  intros l n r. destruct (C29_cached_read_partial (l ++ [Compile n]) (length (sites_after l)) n
      (create_global_node (globals_after l) n)) as (T & A & B & _).
  { unfold sites_after. rewrite grun_snoc. cbn [grun snd]. rewrite nth_error_app2 by auto.
    rewrite Nat.sub_diag. reflexivity. }
  assert (O : ops_of (l ++ [Compile n]) = ops_of l). { rewrite ops_of_snoc. apply app_nil_r. }
  unfold assigned in *. rewrite O in *.
  assert (G : globals_after (l ++ [Compile n]) = globals_after l).
  { unfold globals_after. rewrite grun_snoc. reflexivity. }
  rewrite G in *. cbv zeta in T, A, B. rewrite T in A, B.
  assert (E : r = fst (fst (trivial_global_read (globals_after l) n (create_global_node (globals_after l) n)))).
  { unfold r, create_global_node, trivial_global_read, get_globals_association, has_global.
    destruct (assoc_get (g_table (globals_after l)) n); reflexivity. }
  rewrite E. auto.
Qed.
Print Assumptions C29_first_read_partial.

(** The value meant: the last assignment wins whatever else happens afterwards. *)
Theorem C29_last_assignment_wins : forall l l' n v,
  (forall v', ~ In (Do (GPut n v')) l') ->
  assigned (l ++ Do (GPut n v) :: l') n = Some v
  /\ prim_global (globals_after (l ++ Do (GPut n v) :: l')) n = v
  /\ bc_push_global (globals_after (l ++ Do (GPut n v) :: l')) n = Value v
  /\ forall i s, nth_error (sites_after (l ++ Do (GPut n v) :: l')) i = Some (n, s) ->
       fst (fst (ast_global_read (globals_after (l ++ Do (GPut n v) :: l')) n s)) = Value v.
Proof.
  intros l l' n v H.
  assert (A : assigned (l ++ Do (GPut n v) :: l') n = Some v).
  { change (Do (GPut n v) :: l') with ([Do (GPut n v)] ++ l'). rewrite app_assoc.
    induction l' as [|s l' IH] using rev_ind.
    - rewrite app_nil_r. unfold assigned. rewrite ops_of_snoc. cbn [ops_of]. rewrite value_of_snoc.
      cbn [value_of]. rewrite String.eqb_refl. auto.
    - rewrite app_assoc. unfold assigned in *. rewrite ops_of_snoc.
      assert (IH' := IH (fun v' I => H v' (in_or_app _ _ _ (or_introl I)))). clear IH.
      destruct s as [op|m]; cbn [ops_of]; [|rewrite app_nil_r; auto].
      rewrite value_of_snoc, IH'. destruct op; cbn [value_of]; auto.
      + destruct (String.eqb_spec n0 n); auto. subst. exfalso. apply (H v0). apply in_or_app. right. left. auto.
      + destruct (String.eqb n0 n); auto. }
  split; [auto|]. rewrite C29_global_primitive, C29_bytecode_read, A. split; [auto|split; [auto|]].
  intros i s N. destruct (C29_cached_read_partial _ _ _ _ N) as (_ & V & _). apply V. auto.
Qed.
Print Assumptions C29_last_assignment_wins.

(** Assigning, loading or reading other names changes nothing, neither for new reads nor
    for the cached ones. *)
Definition concerns (n : string) (s : gstep) : Prop :=
  match s with Do (GPut n' _) | Do (GLoad n' _) => n' = n | _ => False end.
Theorem C29_other_names_untouched : forall l l' n,
  (forall s, In s l' -> ~ concerns n s) ->
  prim_global (globals_after (l ++ l')) n = prim_global (globals_after l) n
  /\ bc_push_global (globals_after (l ++ l')) n = bc_push_global (globals_after l) n
  /\ prim_has_global (globals_after (l ++ l')) n = prim_has_global (globals_after l) n
  /\ forall i j s s', nth_error (sites_after l) i = Some (n, s) -> nth_error (sites_after (l ++ l')) j = Some (n, s') ->
       fst (fst (ast_global_read (globals_after (l ++ l')) n s')) = fst (fst (ast_global_read (globals_after l) n s)).
Proof.
  intros l l' n H.
  assert (A : assigned (l ++ l') n = assigned l n
     /\ (load_failed n (ops_of (l ++ l')) <-> load_failed n (ops_of l))).
  { induction l' as [|s l' IH] using rev_ind.
    - rewrite app_nil_r. tauto.
    - rewrite app_assoc. unfold assigned in *. rewrite ops_of_snoc.
      destruct IH as [IH1 IH2]. { intros s' I. apply H. apply in_or_app; auto. }
      assert (Hs : ~ concerns n s) by (apply H; apply in_or_app; right; left; auto).
      destruct s as [op|m]; cbn [ops_of]; [|rewrite app_nil_r; auto].
      rewrite value_of_snoc, IH1, load_failed_snoc, IH2. destruct op; cbn [value_of concerns] in *;
        try (split; [reflexivity|]; split; [intros [X|[X _]]; [auto|congruence]|auto]).
      + destruct (String.eqb_spec n0 n); [tauto|]. split; [auto|]. split; [intros [X|[X _]]; [auto|congruence]|auto].
      + destruct (String.eqb_spec n0 n); [tauto|]. split; [auto|]. split; [intros [X|[X _]]; [auto|congruence]|auto]. }
  destruct A as [A F]. rewrite !C29_global_primitive, !C29_bytecode_read, A. split; [auto|split; [auto|split]].
  - apply eq_true_iff_eq. destruct (grun_inv l) as (_ & _ & H1 & _), (grun_inv (l ++ l')) as (_ & _ & H2 & _).
    unfold prim_has_global, globals_after. rewrite H1, H2, F. unfold assigned in A. rewrite A. tauto.
  - intros i j s s' N N'. destruct (C29_cached_read_partial _ _ _ _ N) as (_ & V1 & U1 & L1).
    destruct (C29_cached_read_partial _ _ _ _ N') as (_ & V2 & U2 & L2). rewrite A in *. rewrite F in *.
    destruct (fst (fst (ast_global_read (globals_after l) n s))).
    + apply V2, V1. auto.
    + apply U2, U1. auto.
    + apply L2, L1. auto.
Qed.
Print Assumptions C29_other_names_untouched.

(** The claim for cached reads is false: after a failed load, reading the name in an AST
    method or a trivial method answers Python's None instead of reporting it unknown. *)
Theorem C29_unknown_reported_refuted : exists l n i s,
  assigned l n = None /\ nth_error (sites_after l) i = Some (n, s)
  /\ fst (fst (ast_global_read (globals_after l) n s)) = Leak.
Proof.
  exists [Compile "Missing"%string; Do (GLoad "Missing" None); Do (GSite 0)], "Missing"%string, 0%nat.
  eexists. split; [reflexivity|]. split; reflexivity.
Qed.
Print Assumptions C29_unknown_reported_refuted.

Example C29_nonvacuous :
  let l := [Compile "A"%string; Do (GSite 0); Do (GPut "B" (VInt 2)); Do (GPut "A" (VInt 1)); Do (GSite 0);
            Compile "A"%string; Do (GPut "A" (VInt 7)); Do (GLoad "C" (Some (VStr "c")))] in
  assigned l "A" = Some (VInt 7) /\ assigned l "C" = Some (VStr "c") /\ assigned l "D" = None
  /\ length (sites_after l) = 2%nat
  /\ (exists s, nth_error (sites_after l) 0 = Some ("A"%string, s) /\ s <> GUninit
        /\ fst (fst (ast_global_read (globals_after l) "A" s)) = Value (VInt 7)).
Proof. cbv zeta. repeat split. eexists. split; [vm_compute; reflexivity|]. split; [discriminate|reflexivity]. Qed.

(** C30 *)
Theorem C30_failed_load_refuted : exists l n,
  prim_has_global (globals_after l) n = false
  /\ prim_has_global (globals_after (l ++ [Do (GLoad n None)])) n = true
  /\ (forall v, ~ In (Do (GPut n v)) (l ++ [Do (GLoad n None)])).
Proof.
  exists [Do (GPut "A" (VInt 1))], "Missing"%string. split; [reflexivity|split; [reflexivity|]].
  intros v [X|[X|[]]]; discriminate.
Qed.
Print Assumptions C30_failed_load_refuted.

(** What does hold: hasGlobal: answers true exactly if the name has a value or a load of
    it failed before. *)
Theorem C30_has_global_exact : forall l n,
  prim_has_global (globals_after l) n = true <-> assigned l n <> None \/ load_failed n (ops_of l).
Proof. intros. destruct (grun_inv l) as (_ & _ & H & _). apply H. Qed.
Print Assumptions C30_has_global_exact.

(** A failed load answers nil, leaves every value and every other name alone, and the
    bytecode interpreter and global: still report the name as unknown. *)
Theorem C30_failed_load_partial : forall l n,
  assigned l n = None ->
  fst (prim_load (globals_after l) n None) = VNil
  /\ prim_global (globals_after (l ++ [Do (GLoad n None)])) n = VNil
  /\ bc_push_global (globals_after (l ++ [Do (GLoad n None)])) n = Unknown
  /\ (forall m, m <> n -> prim_has_global (globals_after (l ++ [Do (GLoad n None)])) m = prim_has_global (globals_after l) m)
  /\ (forall m, prim_global (globals_after (l ++ [Do (GLoad n None)])) m = prim_global (globals_after l) m)
  /\ (forall c, assigned (l ++ [Do (GLoad n None); Do (GLoad n (Some c))]) n = Some c).
Proof.
  intros l n A.
  assert (X : forall m, assigned (l ++ [Do (GLoad n None)]) m = assigned l m).
  { intros m. unfold assigned in *. rewrite ops_of_snoc. cbn [ops_of]. rewrite value_of_snoc. cbn [value_of].
    destruct (String.eqb_spec n m); auto. subst. rewrite A. auto. }
  split; [|split; [|split; [|split; [|split]]]].
  - unfold prim_load, load_class. destruct (grun_inv l) as (_ & V & _). unfold globals_after. rewrite V.
    unfold assigned in A. rewrite A. reflexivity.
  - rewrite C29_global_primitive, X, A. auto.
  - rewrite C29_bytecode_read, X, A. auto.
  - intros m Hm. destruct (C29_other_names_untouched l [Do (GLoad n None)] m) as (_ & _ & T & _).
    { intros s [<-|[]] C. cbn in C. congruence. } auto.
  - intros m. rewrite !C29_global_primitive, X. auto.
  - intros c. change [Do (GLoad n None); Do (GLoad n (Some c))] with ([Do (GLoad n None)] ++ [Do (GLoad n (Some c))]).
    rewrite app_assoc. specialize (X n). unfold assigned in *. rewrite ops_of_snoc. cbn [ops_of]. rewrite value_of_snoc, X, A.
    cbn [value_of]. rewrite String.eqb_refl. auto.
Qed.
Print Assumptions C30_failed_load_partial.

Example C30_nonvacuous :
  assigned [Do (GPut "A" (VInt 1)); Do (GLoad "B" None)] "B" = None
  /\ load_failed "B" (ops_of [Do (GPut "A" (VInt 1)); Do (GLoad "B" None)]).
Proof. split; [reflexivity|]. exists [GPut "A" (VInt 1)], []. split; reflexivity. Qed.

(** C31 *)
Theorem C31_concatenate : forall a b,
  chars (prim_concat a b) = chars a ++ chars b
  /\ exists la lb, prim_length a = VInt la /\ prim_length b = VInt lb
       /\ prim_length (prim_concat a b) = VInt (la + lb).
Proof.
  intros a b. split; [apply chars_app|]. exists (len a), (len b). split; [auto|split; [auto|]].
  unfold prim_length, prim_concat, len. f_equal. rewrite <- !chars_length, chars_app, app_length. lia.
Qed.
Print Assumptions C31_concatenate.

Theorem C31_length : forall a, prim_length a = VInt (Z.of_nat (length (chars a))).
Proof. intros. rewrite chars_length. reflexivity. Qed.
Print Assumptions C31_length.

(** = compares texts, with strings as with symbols; nothing else is equal to a text. *)
Theorem C31_equals : forall a v,
  prim_equals a v = true <-> exists b, (v = VStr b \/ v = VSym b) /\ chars a = chars b.
Proof.
  intros a v. split.
  - destruct v; cbn; try discriminate; intros H; apply String.eqb_eq in H; subst; eauto.
  - intros (b & [-> | ->] & E); apply chars_inj in E; subst; cbn; apply String.eqb_refl.
Qed.
Print Assumptions C31_equals.

(** Texts no longer than a machine word can count, indices that are machine integers. *)
Lemma minus_one m (a : string) (i : Z) : fits_word i = true -> len a <= word_max ->
  (i - 1 = unchecked m (i - 1)) \/ (i < 1 /\ len a <= unchecked m (i - 1)).
Proof.
  unfold fits_word, unchecked, wrap_word, word_min, word_max. intros F L.
  apply andb_true_iff in F. destruct F as [F1 F2]. apply Z.leb_le in F1, F2. destruct m; [|auto].
  destruct (Z.eq_dec i (- 2 ^ 63)) as [->|].
  - right. split; [lia|]. replace ((- 2 ^ 63 - 1 + 2 ^ 63) mod 2 ^ 64) with (2 ^ 64 - 1) by reflexivity. lia.
  - left. rewrite Z.mod_small; lia.
Qed.

Theorem C31_substring : forall m a i j,
  fits_word i = true -> len a <= word_max ->
  (1 <= i <= len a /\ i - 1 <= j <= len a -> chars (prim_substring m a i j) = chars_from_to a i j)
  /\ (~ (1 <= i <= len a /\ i - 1 <= j <= len a) -> prim_substring m a i j = "Error - index out of bounds"%string).
Proof.
  intros m a i j F L. unfold prim_substring. destruct (minus_one m a i F L) as [E|[E1 E2]].
  - rewrite <- E. split.
    + intros H. replace (_ || _ || _ || _) with false.
      2:{ symmetry. rewrite !orb_false_iff. repeat split; lia. }
      unfold slice, chars_from_to. rewrite chars_substring. f_equal; f_equal; lia.
    + intros H. replace (_ || _ || _ || _) with true; auto. symmetry. rewrite !orb_true_iff. lia.
  - split; [lia|]. intros _. replace (_ || _ || _ || _) with true; auto. symmetry. rewrite !orb_true_iff. lia.
Qed.
Print Assumptions C31_substring.

Theorem C31_char_at : forall m a i,
  fits_word i = true -> len a <= word_max ->
  (1 <= i <= len a -> exists c, nth_error (chars a) (Z.to_nat (i - 1)) = Some c /\ chars (prim_char_at m a i) = [c])
  /\ (~ (1 <= i <= len a) -> prim_char_at m a i = "Error - index out of bounds"%string).
Proof.
  intros m a i F L. unfold prim_char_at. destruct (minus_one m a i F L) as [E|[E1 E2]].
  - rewrite <- E. split.
    + intros H. replace (_ || _) with false. 2:{ symmetry. rewrite !orb_false_iff. repeat split; lia. }
      unfold slice. rewrite chars_substring. replace (Z.to_nat (i - 1 + 1 - (i - 1))) with 1%nat by lia.
      destruct (nth_error (chars a) (Z.to_nat (i - 1))) as [c|] eqn:N.
      * exists c. split; auto. apply nth_error_split in N. destruct N as (l1 & l2 & -> & <-).
        rewrite skipn_app, skipn_all, Nat.sub_diag. reflexivity.
      * apply nth_error_None in N. rewrite chars_length in N. unfold len in H. lia.
    + intros H. replace (_ || _) with true; auto. symmetry. rewrite !orb_true_iff. lia.
  - split; [lia|]. intros _. replace (_ || _) with true; auto. symmetry. rewrite !orb_true_iff. lia.
Qed.
Print Assumptions C31_char_at.

(** The whole text, for a non-empty text; the empty one is reported as out of bounds. *)
Theorem C31_whole_substring_partial : forall m a, len a <= word_max -> a <> ""%string ->
  prim_substring m a 1 (len a) = a.
Proof.
  intros m a L N. apply chars_inj. destruct (C31_substring m a 1 (len a) eq_refl L) as [E _].
  assert (0 < len a) by (destruct a; [congruence|unfold len; cbn [String.length]; lia]).
  rewrite E by lia. unfold chars_from_to. cbn [Z.sub]. replace (Z.to_nat (len a - 1 + 1)) with (length (chars a)).
  - apply firstn_all.
  - rewrite chars_length. unfold len. lia.
Qed.
Print Assumptions C31_whole_substring_partial.

Theorem C31_whole_substring_refuted : exists a, forall m, prim_substring m a 1 (len a) <> a.
Proof. exists ""%string. intros []; discriminate. Qed.
Print Assumptions C31_whole_substring_refuted.

(** The parts of a concatenation are recovered. *)
Theorem C31_parts_of_concatenation : forall m a b, len a + len b <= word_max -> a <> ""%string -> b <> ""%string ->
  prim_substring m (prim_concat a b) 1 (len a) = a
  /\ prim_substring m (prim_concat a b) (len a + 1) (len a + len b) = b.
Proof.
  intros m a b L Na Nb.
  assert (P : forall s, s <> ""%string -> 0 < len s).
  { intros s N. destruct s; [congruence|unfold len; cbn [String.length]; lia]. }
  assert (Pa := P a Na). assert (Pb := P b Nb).
  assert (Lab : len (prim_concat a b) = len a + len b).
  { unfold len, prim_concat. rewrite <- !chars_length, chars_app, app_length. lia. }
  assert (La : length (chars a) = Z.to_nat (len a)) by (rewrite chars_length; unfold len; lia).
  assert (Lb : length (chars b) = Z.to_nat (len b)) by (rewrite chars_length; unfold len; lia).
  split; apply chars_inj.
  - destruct (C31_substring m (prim_concat a b) 1 (len a) eq_refl) as [E _]; [lia|].
    rewrite E by lia. unfold chars_from_to, prim_concat. rewrite chars_app. cbn [Z.sub].
    replace (Z.to_nat (len a - 1 + 1)) with (length (chars a)) by lia. cbn [skipn].
    replace (skipn (Z.to_nat (1 + - (1))) _) with (chars a ++ chars b) by reflexivity.
    rewrite firstn_app, firstn_all, Nat.sub_diag. apply app_nil_r.
  - destruct (C31_substring m (prim_concat a b) (len a + 1) (len a + len b)) as [E _]; [| lia |].
    { unfold fits_word, word_min, word_max in *. apply andb_true_iff. split; apply Z.leb_le; lia. }
    rewrite E by lia. unfold chars_from_to, prim_concat. rewrite chars_app.
    replace (Z.to_nat (len a + 1 - 1)) with (length (chars a)) by lia.
    replace (Z.to_nat (len a + len b - (len a + 1) + 1)) with (length (chars b)) by lia.
    rewrite skipn_app, skipn_all, Nat.sub_diag. apply firstn_all.
Qed.
Print Assumptions C31_parts_of_concatenation.

(** isWhiteSpace, isLetters, isDigits: true exactly of non-empty texts of that class. *)
Definition white (c : ascii) : Prop := In (nat_of_ascii c) [9; 10; 11; 12; 13; 32]%nat.
Definition letter (c : ascii) : Prop := In c (chars "abcdefghijklmnopqrstuvwxyzABCDEFGHIJKLMNOPQRSTUVWXYZ").
Definition digit (c : ascii) : Prop := In c (chars "0123456789").
Theorem C31_predicates : forall s,
  (prim_all is_space s = true <-> s <> ""%string /\ forall c, In c (chars s) -> white c)
  /\ (prim_all is_alpha s = true <-> s <> ""%string /\ forall c, In c (chars s) -> letter c)
  /\ (prim_all is_digit s = true <-> s <> ""%string /\ forall c, In c (chars s) -> digit c).
Proof.
  assert (G : forall p (P : ascii -> Prop), (forall c, p c = true <-> P c) -> forall s,
    prim_all p s = true <-> s <> ""%string /\ forall c, In c (chars s) -> P c).
  { intros p P HP s. unfold prim_all. rewrite all_chars_spec. destruct (forallb p (chars s)) eqn:E.
    - rewrite forallb_forall in E. rewrite Z.ltb_lt. split.
      + intros H. split; [intros ->; cbn in H; lia|]. intros c I. apply HP. auto.
      + intros [N _]. destruct s; [congruence|]. unfold len. cbn [String.length]. lia.
    - split; [discriminate|]. intros [_ H].
      assert (forallb p (chars s) = true). { apply forallb_forall. intros c I. apply HP; auto. } congruence. }
  assert (D : forall c, (is_space c = true <-> white c) /\ (is_alpha c = true <-> letter c) /\ (is_digit c = true <-> digit c)).
  { intros c.
    assert (T : forall b (P : Prop) (d : {P} + {~ P}), b = (if d then true else false) -> (b = true <-> P)).
    { intros b P [d|d] ->; split; auto; discriminate. }
    split; [|split].
    - apply (T _ _ (in_dec Nat.eq_dec _ _)). destruct c as [[] [] [] [] [] [] [] []]; vm_compute; reflexivity.
    - apply (T _ _ (in_dec ascii_dec _ _)). destruct c as [[] [] [] [] [] [] [] []]; vm_compute; reflexivity.
    - apply (T _ _ (in_dec ascii_dec _ _)). destruct c as [[] [] [] [] [] [] [] []]; vm_compute; reflexivity. }
  intros s. split; [|split]; apply G; apply D.
Qed.
Print Assumptions C31_predicates.

(** asSymbol then asString gives the text back, in any table built by requests. *)
Theorem C31_symbol_round_trip : forall names is t s,
  intern empty_symtab names = (is, t) ->
  let (i, t') := prim_as_symbol t s in prim_as_string t' i = Some s.
Proof.
  intros names is t s E. unfold prim_as_symbol.
  destruct (symbol_for t s) as [i t'] eqn:F.
  destruct (intern_ok _ _ _ _ empty_ok E) as (Ok1 & _).
  destruct (symbol_for_ok _ _ _ _ Ok1 F) as ([_ I] & A & _). unfold prim_as_string.
  rewrite (find_assoc _ s i); auto.
  - intros s' j H ->. eauto.
  - pose proof (symbol_for_nodup t s) as D. rewrite F in D. apply D.
    pose proof (intern_nodup names empty_symtab) as D'. rewrite E in D'. apply D'. constructor.
Qed.
Print Assumptions C31_symbol_round_trip.

Example C31_nonvacuous :
  prim_substring Translated "Hello World" 7 11 = "World"%string
  /\ prim_substring Translated "Hello" 3 2 = ""%string
  /\ prim_char_at Hosted "Hello" 5 = "o"%string
  /\ fits_word 7 = true /\ len "Hello World" <= word_max
  /\ prim_all is_digit "0159" = true /\ prim_all is_digit "" = false.
Proof. repeat split. discriminate. Qed.
