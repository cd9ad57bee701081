From Coq Require Import ZArith Bool String Ascii List Lia Floats.SpecFloat.
From Verif Require Import Base TxtModel TxtSpec.
Import ListNotations.
Open Scope Z_scope.
Open Scope list_scope.

(** * Symbols *)
Definition sym_ok (t : symtab) : Prop :=
  (forall s i, assoc_get (st_map t) s = Some i -> (i < st_next t)%nat)
  /\ (forall s s' i, assoc_get (st_map t) s = Some i -> assoc_get (st_map t) s' = Some i -> s = s').

Lemma symbol_for_ok t s i t' : sym_ok t -> symbol_for t s = (i, t') ->
  sym_ok t' /\ assoc_get (st_map t') s = Some i
  /\ (forall s' j, assoc_get (st_map t) s' = Some j -> assoc_get (st_map t') s' = Some j).
Proof.
  intros [L I]. unfold symbol_for. destruct (assoc_get (st_map t) s) as [j|] eqn:E.
  - intros [= <- <-]. split; [split; auto|auto].
  - intros [= <- <-]. split; [split|split].
    + intros s' j. cbn. destruct (String.eqb_spec s s').
      * intros [= <-]. lia.
      * intros H. apply L in H. lia.
    + intros s1 s2 j. cbn. destruct (String.eqb_spec s s1), (String.eqb_spec s s2); subst; auto.
      * intros [= <-] H. apply L in H. lia.
      * intros H [= <-]. apply L in H. lia.
      * apply I.
    + cbn. rewrite String.eqb_refl. auto.
    + intros s' j H. cbn. destruct (String.eqb_spec s s'); auto. congruence.
Qed.

Lemma intern_ok names : forall t is t', sym_ok t -> intern t names = (is, t') ->
  sym_ok t' /\ length is = length names
  /\ (forall k n, nth_error names k = Some n -> exists i, nth_error is k = Some i /\ assoc_get (st_map t') n = Some i)
  /\ (forall s' j, assoc_get (st_map t) s' = Some j -> assoc_get (st_map t') s' = Some j).
Proof.
  induction names as [|n r IH]; intros t is t' Ok0; cbn [intern].
  - intros [= <- <-]. split; [auto|split; [auto|split; [|auto]]]. intros [|k] n; discriminate.
  - destruct (symbol_for t n) as [i t1] eqn:E1. destruct (intern t1 r) as [is1 t2] eqn:E2.
    intros [= <- <-]. destruct (symbol_for_ok _ _ _ _ Ok0 E1) as (O1 & A1 & M1).
    destruct (IH _ _ _ O1 E2) as (O2 & L2 & N2 & M2).
    split; [auto|split; [cbn; congruence|split]].
    + intros [|k] n' H; cbn in *; eauto. injection H as <-. eauto.
    + auto.
Qed.

Lemma empty_ok : sym_ok empty_symtab.
Proof. split; intros; discriminate. Qed.

Lemma find_assoc d n i : assoc_get d n = Some i ->
  (forall s' j, assoc_get d s' = Some j -> j = i -> s' = n) ->
  NoDup (map fst d) ->
  find (fun p : string * nat => Nat.eqb (snd p) i) d = Some (n, i).
Proof.
  induction d as [|[k v] d IH]; intros A I N; [discriminate|]. cbn in *. inversion N as [|? ? Nk Nd]; subst.
  destruct (Nat.eqb_spec v i).
  - subst. assert (k = n) by (apply (I k i); auto; rewrite String.eqb_refl; auto). subst. auto.
  - destruct (String.eqb_spec k n); [congruence|]. apply IH; auto.
    intros s' j H ->. apply (I s' i); auto. destruct (String.eqb_spec k s'); auto. subst.
    exfalso. apply Nk. clear -H. induction d as [|[a b] d IH]; [discriminate|]. cbn in *.
    destruct (String.eqb_spec a s'); auto.
Qed.
Lemma symbol_for_nodup t s : NoDup (map fst (st_map t)) -> NoDup (map fst (st_map (snd (symbol_for t s)))).
Proof.
  intros N. unfold symbol_for. destruct (assoc_get (st_map t) s) eqn:E; auto. cbn. constructor; auto.
  intros I. clear N. induction (st_map t) as [|[a b] d IH]; cbn in *; auto.
  destruct (String.eqb_spec a s); [discriminate|]. destruct I; auto.
Qed.
Lemma intern_nodup names : forall t, NoDup (map fst (st_map t)) -> NoDup (map fst (st_map (snd (intern t names)))).
Proof.
  induction names as [|n r IH]; intros t N; cbn [intern]; auto.
  pose proof (symbol_for_nodup t n N) as N1. destruct (symbol_for t n) as [i t1]. cbn in N1.
  specialize (IH t1 N1). destruct (intern t1 r). auto.
Qed.

(** * Arity *)
Lemma is_operator_spec c : is_operator_char c = true <-> In c operator_chars.
Proof.
  assert (E : forall d, Ascii.eqb c d = true <-> d = c).
  { intros d. rewrite Ascii.eqb_eq. split; congruence. }
  unfold is_operator_char, operator_chars. cbn [chars list_ascii_of_string In].
  rewrite !orb_true_iff, !E. tauto.
Qed.
Lemma is_binary_spec s : is_binary_signature s = true <-> spelled_with_operators s.
Proof.
  unfold spelled_with_operators, chars. induction s as [|c t IH]; cbn [is_binary_signature list_ascii_of_string In].
  - split; auto. intros _ c [].
  - destruct (is_operator_char c) eqn:E.
    + rewrite IH. split.
      * intros H c' [<-|I]; auto. apply is_operator_spec; auto.
      * intros H c' I. apply H; auto.
    + split; [discriminate|]. intros H. exfalso.
      assert (is_operator_char c = true) by (apply is_operator_spec; apply H; auto). congruence.
Qed.
Lemma count_colons_spec s : forall n, count_colons s n = (colons s + n)%nat.
Proof.
  unfold colons, chars. induction s as [|c t IH]; intros n; [reflexivity|].
  cbn [count_colons list_ascii_of_string count_occ]. rewrite IH.
  destruct (ascii_dec c ":"); [subst; cbn; lia|].
  apply Ascii.eqb_neq in n0. rewrite n0. auto.
Qed.

(** * Globals *)
Lemma set_nth_length {A} (l : list A) i x : length (set_nth l i x) = length l.
Proof. revert i; induction l; destruct i; cbn; auto. Qed.
Lemma nth_set_nth {A} (l : list A) i x j d : (i < length l)%nat ->
  nth j (set_nth l i x) d = if Nat.eqb i j then x else nth j l d.
Proof.
  revert i j; induction l as [|a l IH]; intros [|i] [|j]; cbn; try lia; auto.
  intros H. apply IH. lia.
Qed.
Lemma nth_error_set_nth {A} (l : list A) i x j : (i < length l)%nat ->
  nth_error (set_nth l i x) j = if Nat.eqb i j then Some x else nth_error l j.
Proof.
  revert i j; induction l as [|a l IH]; intros [|i] [|j]; cbn; try lia; auto.
  intros H. apply IH. lia.
Qed.

Definition gok (g : globals) : Prop :=
  (forall n i, assoc_get (g_table g) n = Some i -> (i < length (g_cells g))%nat)
  /\ (forall n n' i, assoc_get (g_table g) n = Some i -> assoc_get (g_table g) n' = Some i -> n = n').

Lemma set_global_ok g n v : gok g ->
  gok (set_global g n v)
  /\ (forall n', get_global (set_global g n v) n' = if String.eqb n n' then v else get_global g n')
  /\ (forall n', has_global (set_global g n v) n' = if String.eqb n n' then true else has_global g n')
  /\ (forall n' i, assoc_get (g_table g) n' = Some i -> assoc_get (g_table (set_global g n v)) n' = Some i).
Proof.
  intros [L I]. unfold set_global, get_globals_association, get_global, has_global, cell.
  destruct (assoc_get (g_table g) n) as [i|] eqn:E; cbn [g_table g_cells].
  - assert (Hi := L _ _ E). split; [|split; [|split]].
    + split; cbn; [|exact I]. intros n' j H. rewrite set_nth_length. eauto.
    + intros n'. destruct (String.eqb_spec n n').
      * subst. rewrite E. cbn. rewrite nth_set_nth by auto. rewrite Nat.eqb_refl. auto.
      * destruct (assoc_get (g_table g) n') as [j|] eqn:E'; auto. cbn. rewrite nth_set_nth by auto.
        destruct (Nat.eqb_spec i j); auto. subst. exfalso. eauto.
    + intros n'. destruct (String.eqb_spec n n'); auto. subst. rewrite E. auto.
    + auto.
  - assert (F : forall n' i, assoc_get (g_table g) n' = Some i -> i <> length (g_cells g)).
    { intros n' i H. apply L in H. lia. }
    split; [|split; [|split]].
    + split; cbn.
      * intros n' i. rewrite set_nth_length, app_length. cbn.
        destruct (String.eqb n n'); [intros [= <-]; lia|]. intros H. apply L in H. lia.
      * intros n1 n2 i. destruct (String.eqb_spec n n1), (String.eqb_spec n n2); subst; auto.
        -- intros [= <-] H. apply F in H. tauto.
        -- intros H [= <-]. apply F in H. tauto.
        -- apply I.
    + intros n'. cbn [assoc_get]. destruct (String.eqb_spec n n').
      * subst. rewrite nth_set_nth by (rewrite app_length; cbn; lia). rewrite Nat.eqb_refl. auto.
      * destruct (assoc_get (g_table g) n') as [j|] eqn:E'; auto.
        rewrite nth_set_nth by (rewrite app_length; cbn; lia). specialize (F _ _ E').
        destruct (Nat.eqb_spec (length (g_cells g)) j); [congruence|]. apply app_nth1. eauto.
    + intros n'. cbn [assoc_get]. destruct (String.eqb n n'); auto.
    + intros n' i H. cbn [assoc_get]. destruct (String.eqb_spec n n'); auto. congruence.
Qed.

Lemma value_of_snoc n ops op : forall cur, value_of n cur (ops ++ [op]) = value_of n (value_of n cur ops) [op].
Proof. induction ops as [|o ops IH]; intros cur; auto. destruct o; cbn [value_of app]; apply IH. Qed.
Lemma ops_of_snoc l s : ops_of (l ++ [s]) = ops_of l ++ ops_of [s].
Proof. induction l as [|x l IH]; auto. destruct x; cbn [ops_of app]; rewrite IH; auto. Qed.
Lemma grun_snoc l s : forall st, grun st (l ++ [s]) = grun (grun st l) [s].
Proof. induction l as [|x l IH]; intros; auto. destruct x; cbn [grun app]; apply IH. Qed.

Lemma load_failed_snoc n ops op : load_failed n (ops ++ [op]) <->
  load_failed n ops \/ (op = GLoad n None /\ value_of n None ops = None).
Proof.
  unfold load_failed. split.
  - intros (pre & post & E & V). destruct post as [|x post _] using rev_ind.
    + apply app_inj_tail in E. destruct E as [-> ->]. auto.
    + rewrite app_comm_cons, app_assoc in E. apply app_inj_tail in E. destruct E as [-> ->].
      left. exists pre, post. auto.
  - intros [(pre & post & -> & V)|[-> V]].
    + exists pre, (post ++ [op]). rewrite <- app_assoc. auto.
    + exists ops, []. auto.
Qed.

Definition ginv (ops : list gop) (st : gstate) : Prop :=
  gok (fst st)
  /\ (forall n, get_global (fst st) n = value_of n None ops)
  /\ (forall n, has_global (fst st) n = true <-> value_of n None ops <> None \/ load_failed n ops)
  /\ (forall i n s, nth_error (snd st) i = Some (n, s) ->
        forall j, s = GCached j -> assoc_get (g_table (fst st)) n = Some j).

Lemma assoc_has g n i : assoc_get (g_table g) n = Some i -> has_global g n = true.
Proof. unfold has_global. intros ->. auto. Qed.

(** What a read answers in terms of the dictionary. *)
Lemma ast_read_ok g n s : (forall j, s = GCached j -> assoc_get (g_table g) n = Some j) ->
  exists s', ast_global_read g n s = (
     (match get_global g n with
      | Some v => Value v
      | None => if has_global g n then Leak else Unknown
      end), s', g)
    /\ (forall j, s' = GCached j -> assoc_get (g_table g) n = Some j).
Proof.
  intros H. unfold ast_global_read. destruct s as [|j].
  - unfold get_globals_association, get_global, has_global, assoc_value.
    destruct (assoc_get (g_table g) n) as [i|] eqn:E.
    + exists (GCached i). split; [destruct (cell g i); auto|intros j [= <-]; auto].
    + exists GUninit. split; [auto|discriminate].
  - specialize (H j eq_refl). unfold get_global, has_global, assoc_value. rewrite H. exists (GCached j).
    split; [destruct (cell g j); auto|intros k [= <-]; auto].
Qed.

Lemma gstep_inv l s st : ginv (ops_of l) st -> ginv (ops_of (l ++ [s])) (grun st [s]).
Proof.
  rewrite ops_of_snoc. intros (K & V & H & S0). destruct st as [g sites]. cbn [fst snd] in *.
  destruct s as [op|n]; cbn [ops_of grun].
  - destruct op as [n v|n found|n|n|i]; cbn [gexec].
    + (* put *) destruct (set_global_ok g n (Some v) K) as (K' & V' & H' & M').
      unfold ginv, prim_global_put; cbn [fst snd].
      split; [auto|split; [|split]].
      * intros n'. rewrite V', value_of_snoc. cbn [value_of]. rewrite <- V. auto.
      * intros n'. rewrite H', value_of_snoc, load_failed_snoc. cbn [value_of].
        destruct (String.eqb_spec n n').
        -- split; [left; discriminate|auto].
        -- rewrite H. split; [tauto|]. intros [X|[X|[X _]]]; auto; discriminate.
      * intros i n' s' N j E. apply M'. eapply S0; eauto.
    + (* load *) unfold ginv, prim_load, load_class; cbn [fst snd].
      rewrite V. destruct (value_of n None (ops_of l)) as [v0|] eqn:E.
      * cbn [fst snd]. split; [auto|split; [|split]].
        -- intros n'. rewrite value_of_snoc. cbn [value_of]. destruct (String.eqb_spec n n'); [subst|auto].
           rewrite V, E. auto.
        -- intros n'. rewrite H, value_of_snoc, load_failed_snoc. cbn [value_of].
           destruct (String.eqb_spec n n'); [subst|].
           ++ rewrite E. split; [left; congruence|]. left; congruence.
           ++ split; [tauto|]. intros [X|[X|[X _]]]; auto. congruence.
        -- exact S0.
      * destruct (set_global_ok g n found K) as (K' & V' & H' & M'). cbn [fst snd].
        split; [auto|split; [|split]].
        -- intros n'. rewrite V', value_of_snoc. cbn [value_of]. destruct (String.eqb_spec n n'); [subst|auto].
           rewrite E. auto.
        -- intros n'. rewrite H', value_of_snoc, load_failed_snoc. cbn [value_of].
           destruct (String.eqb_spec n n'); [subst|].
           ++ rewrite E. split; auto. intros _. destruct found; [left; discriminate|]. right. right. auto.
           ++ rewrite H. split; [tauto|]. intros [X|[X|[X _]]]; auto. congruence.
        -- intros i n' s' N j Ej. apply M'. eapply S0; eauto.
    + unfold ginv; cbn [fst snd]. split; [auto|split; [|split; [|auto]]].
      * intros n'. rewrite value_of_snoc. cbn [value_of]. auto.
      * intros n'. rewrite value_of_snoc, load_failed_snoc. cbn [value_of]. rewrite H.
        split; [tauto|]. intros [X|[X|[X _]]]; auto; discriminate.
    + unfold ginv; cbn [fst snd]. split; [auto|split; [|split; [|auto]]].
      * intros n'. rewrite value_of_snoc. cbn [value_of]. auto.
      * intros n'. rewrite value_of_snoc, load_failed_snoc. cbn [value_of]. rewrite H.
        split; [tauto|]. intros [X|[X|[X _]]]; auto; discriminate.
    + assert (G : ginv (ops_of l ++ [GSite i]) (g, sites)).
      { unfold ginv; cbn [fst snd]. split; [auto|split; [|split; [|auto]]].
        * intros n'. rewrite value_of_snoc. cbn [value_of]. auto.
        * intros n'. rewrite value_of_snoc, load_failed_snoc. cbn [value_of]. rewrite H.
          split; [tauto|]. intros [X|[X|[X _]]]; auto; discriminate. }
      destruct (nth_error sites i) as [[n s]|] eqn:E; auto.
      destruct (ast_read_ok g n s) as (s' & R & Hs'). { intros j Ej. eapply S0; eauto. }
      rewrite R. destruct G as (G1 & G2 & G3 & G4). unfold ginv; cbn [fst snd] in *.
      split; [auto|split; [auto|split; [auto|]]].
      intros k n1 s1 N1 j Ej. rewrite nth_error_set_nth in N1 by (apply nth_error_Some; congruence).
      destruct (Nat.eqb i k); [|eapply G4; eauto]. injection N1 as <- <-. auto.
  - rewrite app_nil_r. unfold ginv; cbn [fst snd]. split; [auto|split; [auto|split; [auto|]]].
    intros i n' s' N j Ej. destruct (Nat.lt_ge_cases i (length sites)) as [Hl|Hl].
    + rewrite nth_error_app1 in N by auto. eapply S0; eauto.
    + rewrite nth_error_app2 in N by auto. destruct (i - length sites)%nat as [|k]; [|destruct k; discriminate].
      cbn in N. injection N as <- <-. unfold create_global_node in Ej.
      destruct (assoc_get (g_table g) n) as [j'|] eqn:E; [|discriminate]. injection Ej as <-. auto.
Qed.

Lemma grun_inv l : ginv (ops_of l) (grun ginit l).
Proof.
  induction l as [|s l IH] using rev_ind.
  - split; [split; intros; discriminate|]. split; [auto|]. split.
    + intros n. cbn. split; [discriminate|]. intros [X|(pre & post & E & _)]; [congruence|].
      destruct pre; discriminate.
    + intros [|i] n s; discriminate.
  - rewrite grun_snoc. apply gstep_inv; auto.
Qed.

(** * Strings *)
Lemma chars_app a b : chars (a ++ b)%string = chars a ++ chars b.
Proof. unfold chars. induction a; cbn; congruence. Qed.
Lemma chars_length a : length (chars a) = String.length a.
Proof. unfold chars. induction a; cbn; congruence. Qed.
Lemma chars_inj a b : chars a = chars b -> a = b.
Proof. intros H. rewrite <- (string_of_list_ascii_of_string a), <- (string_of_list_ascii_of_string b). unfold chars in H. congruence. Qed.
Lemma chars_substring a : forall i n, chars (substring i n a) = firstn n (skipn i (chars a)).
Proof.
  unfold chars. induction a as [|c a IH]; intros [|i] [|n]; cbn; auto.
  - f_equal. rewrite IH. reflexivity.
  - rewrite IH. destruct (skipn i _); auto.
  - rewrite IH. reflexivity.
Qed.
Lemma all_chars_spec p s : all_chars p s = forallb p (chars s).
Proof. unfold chars. induction s; cbn; auto. rewrite IHs. destruct (p a); auto. Qed.
