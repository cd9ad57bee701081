(** The listing is the one of the specification, and tells the code. *)
From Coq Require Import ZArith Bool String Ascii List Lia.
From Verif Require Import Base LexModel LexSpec ParseModel BcModel BcInterp NtxModel NtxSpec NtxProofs DisModel DisSpec DisText.
Import ListNotations.
Open Scope nat_scope.
Open Scope list_scope.

Section Listing.
Variable ob : objects.
(** Induction over methods and the methods in their literals. *)
Section MethInd.
Variable P : meth -> Prop.
Hypothesis H : forall m, (forall i m', nth_error (me_lits m) i = Some (LM m') -> P m') -> P m.
Fixpoint meth_rec (m : meth) : P m :=
  match m with
  | Meth label bytes lits locals nargs loops mx tr =>
      H (Meth label bytes lits locals nargs loops mx tr)
        ((fix go (ls : list literal) : forall i m', nth_error ls i = Some (LM m') -> P m' :=
            match ls with
            | [] => fun i m' E => match i return nth_error (@nil literal) i = Some (LM m') -> P m' with
                                  | O => fun E => ltac:(discriminate E)
                                  | S i => fun E => ltac:(discriminate E)
                                  end E
            | l :: ls => fun i m' =>
                match i return nth_error (l :: ls) i = Some (LM m') -> P m' with
                | O => match l return nth_error (l :: ls) 0 = Some (LM m') -> P m' with
                       | LM m0 => fun E => eq_ind m0 P (meth_rec m0) m' ltac:(injection E as E; exact E)
                       | LV _ => fun E => ltac:(discriminate E)
                       | LS _ => fun E => ltac:(discriminate E)
                       end
                | S i => fun E => go ls i m' E
                end
            end) lits)
  end.
End MethInd.

Lemma block_dumps_nth lits i : nth_error (block_dumps ob lits) i =
  option_map (fun l => match l with
                | LM m => dump_method ob m
                | _ => fun _ => error_println (str "(") >> raise_ AttributeError
                end) (nth_error lits i).
Proof. apply nth_error_map. Qed.

(** One instruction. *)
Lemma entry_text m a c ops ind t :
  (forall i m' ind t, c = B_push_block -> nth_error ops 0 = Some i -> nth_error (me_lits m) i = Some (LM m') ->
     (listed ob m' ind t <-> dump_method ob m' ind = (t, None))) ->
  nth_error (me_bytes m) a = Some (num c) -> c <> B_invalid -> 1 + length ops = blen c ->
  (forall i n, nth_error ops i = Some n -> nth_error (me_bytes m) (a + S i) = Some n) ->
  error_print ind >> dump_bytecode ob (me_bytes m) (me_lits m) (block_dumps ob (me_lits m)) a ind = (t, None) <->
  entry ob m ind (a, c, ops) t.
Proof.
  intros IH Ha Hc Hl Ho. rewrite (dump_bytecode_at ob _ _ _ _ _ c) by auto.
  rewrite print_then. setoid_rewrite print_then.
  assert (D : c = B_push_block \/ c <> B_push_block) by (destruct c; auto; right; discriminate).
  destruct D as [->|D].
  - destruct ops as [|i [|? ?]]; try discriminate Hl. specialize (IH i). specialize (Ho 0 i eq_refl).
    replace (a + 1) with (a + 1) in Ho by lia.
    assert (T : forall t, op_text ob (me_bytes m) (me_lits m) (block_dumps ob (me_lits m)) a ind B_push_block = (t, None) <->
      exists m' t', nth_error (me_lits m) i = Some (LM m') /\ listed ob m' (ind ++ tab) t' /\
        t = (str "block: (index: " ++ nat_str i ++ str ") ") ++ t').
    { intros u. unfold op_text, get_constant, get_bytecode. change (blen B_push_block =? 1) with false. cbv iota. rewrite Ho.
      cbn [use Base.bind]. rewrite print_then, block_dumps_nth.
      destruct (nth_error (me_lits m) i) as [[v|s|m']|] eqn:E; cbn [option_map use].
      - split; [intros (? & ? & _); discriminate|intros (? & ? & ? & _); discriminate].
      - split; [intros (? & ? & _); discriminate|intros (? & ? & ? & _); discriminate].
      - split.
        + intros (t' & H1 & ->). exists m', t'. rewrite (IH m' (ind ++ tab) t' eq_refl eq_refl eq_refl). auto.
        + intros (m'' & t' & E' & H1 & ->). injection E' as <-. exists t'.
          rewrite (IH m' (ind ++ tab) t' eq_refl eq_refl eq_refl) in H1. auto.
      - split; [intros (? & ? & _); discriminate|intros (? & ? & ? & _); discriminate]. }
    split.
    + intros (t' & (t'' & H1 & ->) & ->). apply T in H1. destruct H1 as (m' & t3 & E & H1 & ->).
      replace (ind ++ (pad a ++ nat_str a ++ str ":" ++ str (mnemonic B_push_block) ++ str "  ") ++
                (str "block: (index: " ++ nat_str i ++ str ") ") ++ t3)
        with (ind ++ (pad a ++ nat_str a) ++ chars ":" ++ chars (mnemonic B_push_block) ++ chars "  block: (index: " ++ nat_str i ++ chars ") " ++ t3)
        by (rewrite <- !app_assoc; reflexivity).
      eapply a_block; eauto.
      * apply column_str. reflexivity.
      * apply decimal_str. reflexivity.
    + intros H. inversion H as [|m0 ind0 a0 i0 m' ta ti t' H1 H2 H3 H4 E1 E2 E3 E4]; subst; [congruence|].
      apply column_str in H1. apply decimal_str in H2. subst ta ti.
      eexists. split; [eexists; split; [apply T; exists m', t'; repeat split; eauto|reflexivity]|].
      rewrite <- !app_assoc. reflexivity.
  - pose proof (op_text_operands ob m a c ops ind) as T. split.
    + intros (t' & (t'' & H1 & ->) & ->). apply T in H1; auto. destruct H1 as (to & H1 & ->).
      replace (ind ++ (pad a ++ nat_str a ++ str ":" ++ str (mnemonic c) ++ str "  ") ++ line to)
        with (line (ind ++ (pad a ++ nat_str a) ++ chars ":" ++ chars (mnemonic c) ++ chars "  " ++ to))
        by (unfold line; rewrite <- !app_assoc; reflexivity).
      apply an_entry; auto. apply column_str. reflexivity.
    + intros H. inversion H as [m0 ind0 a0 b0 ops0 ta to H1 H2 H3 E1 E2 E3 E4|]; subst; [|congruence].
      apply column_str in H2. subst ta.
      eexists. split; [eexists; split; [apply T; eauto|reflexivity]|].
      unfold line. rewrite <- !app_assoc. reflexivity.
Qed.

(** The instructions of a method. *)
Lemma entries_text m ind : forall a bs code, decodes a bs code ->
  (forall b i m' ind t, In (b, B_push_block, [i]) code -> nth_error (me_lits m) i = Some (LM m') ->
     (listed ob m' ind t <-> dump_method ob m' ind = (t, None))) ->
  forall pre fuel t, me_bytes m = pre ++ bs -> length pre = a -> length bs < fuel ->
  dump_loop (me_bytes m) (fun b => dump_bytecode ob (me_bytes m) (me_lits m) (block_dumps ob (me_lits m)) b ind) ind fuel a = (t, None)
  <-> entries ob m ind code t.
Proof.
  induction 1 as [a|a b ops bs code Hb Hl Hd IHd]; intros IH pre fuel t E La Lf; (destruct fuel as [|fuel]; [cbn [length] in Lf; lia|]);
    cbn [dump_loop].
  - rewrite app_nil_r in E. rewrite E, La, Nat.ltb_irrefl. split.
    + intros H. injection H as <-. constructor.
    + intros H. inversion H. reflexivity.
  - assert (Hn : nth_error (me_bytes m) a = Some (num b)) by (rewrite E, nth_error_app2 by lia; rewrite La, Nat.sub_diag; reflexivity).
    assert (Ho : forall i n, nth_error ops i = Some n -> nth_error (me_bytes m) (a + S i) = Some n).
    { intros i n Hi. rewrite E, nth_error_app2 by lia. replace (a + S i - length pre) with (S i) by lia. cbn [nth_error].
      rewrite nth_error_app1; auto. apply nth_error_Some. congruence. }
    assert (La' : a < length (me_bytes m)) by (apply nth_error_Some; congruence).
    apply Nat.ltb_lt in La'. rewrite La'.
    assert (G : get_bytecode (me_bytes m) a = Ok (num b)) by (unfold get_bytecode; rewrite Hn; reflexivity).
    rewrite G. cbn [use]. rewrite len_num by auto. cbn [use].
    cbn [length] in Lf. rewrite app_length in Lf.
    specialize (IHd (fun b i m' ind t H => IH b i m' ind t (or_intror H)) (pre ++ num b :: ops) fuel).
    assert (EN := entry_text m a b ops ind).
    assert (IHe : forall i m' ind t, b = B_push_block -> nth_error ops 0 = Some i -> nth_error (me_lits m) i = Some (LM m') ->
       (listed ob m' ind t <-> dump_method ob m' ind = (t, None))).
    { intros i m' ind' t' -> Hi. apply (IH a). left. destruct ops as [|x [|? ?]]; try discriminate Hl. injection Hi as ->. reflexivity. }
    assert (A : forall t', error_print ind >> dump_bytecode ob (me_bytes m) (me_lits m) (block_dumps ob (me_lits m)) a ind = (t', None)
        <-> entry ob m ind (a, b, ops) t') by (intros; apply EN; auto). clear EN.
    assert (B : forall t', dump_loop (me_bytes m) (fun b => dump_bytecode ob (me_bytes m) (me_lits m) (block_dumps ob (me_lits m)) b ind) ind fuel (a + blen b) = (t', None)
        <-> entries ob m ind code t').
    { intros. apply IHd.
      - rewrite E, <- app_assoc. reflexivity.
      - rewrite app_length. cbn [length]. lia.
      - lia. }
    rewrite print_then. setoid_rewrite then_ok. split.
    + intros (t' & (t1 & t2 & H1 & H2 & ->) & ->). rewrite app_assoc. constructor.
      * apply A, print_then. eauto.
      * apply B. exact H2.
    + intros H. inversion H as [|m0 ind0 x c0 t1 ts H1 H2]; subst.
      apply A in H1. apply B in H2. apply print_then in H1. destruct H1 as (t' & H1 & ->).
      exists (t' ++ ts). split; [|rewrite app_assoc; reflexivity]. exists t', ts. auto.
Qed.

Lemma decodes_fun a bs c1 : decodes a bs c1 -> forall c2, decodes a bs c2 -> c1 = c2.
Proof.
  induction 1 as [a|a b ops bs code Hb Hl Hd IH]; intros c2 H2.
  - inversion H2. reflexivity.
  - inversion H2 as [|a' b' ops' bs' code' Hb' Hl' Hd' Ea En Ec].
    assert (b' = b) by (pose proof (of_num_num b); pose proof (of_num_num b'); congruence). subst b'.
    assert (ops' = ops /\ bs' = bs) as [-> ->].
    { match goal with Hx : ops' ++ bs' = ops ++ bs |- _ => rename Hx into Eo end.
      assert (L : length ops' = length ops) by lia. clear - Eo L.
      revert ops Eo L. induction ops' as [|x ops' IHo]; intros [|y ops] Eo L; try discriminate L; cbn [app] in Eo; auto.
      injection Eo as -> Eo. injection L as L. destruct (IHo _ Eo L) as [-> ->]. auto. }
    f_equal. apply IH. exact Hd'.
Qed.

(** A whole method. *)
Theorem listing m : (forall m', shown m m' -> exists code, decodes 0 (me_bytes m') code) ->
  forall ind t, listed ob m ind t <-> dump_method ob m ind = (t, None).
Proof.
  revert m. apply (meth_rec (fun m => (forall m', shown m m' -> exists code, decodes 0 (me_bytes m') code) ->
    forall ind t, listed ob m ind t <-> dump_method ob m ind = (t, None))).
  intros m IH Hs ind t. destruct (Hs m (shown_itself m)) as (code & Hd).
  assert (IH' : forall b i m' ind t, In (b, B_push_block, [i]) code -> nth_error (me_lits m) i = Some (LM m') ->
     (listed ob m' ind t <-> dump_method ob m' ind = (t, None))).
  { intros b i m' ind' t' Hi Hm. apply (IH i m' Hm). intros m'' H''. apply Hs.
    assert (S1 : shown m m') by (eapply shown_block; eauto using shown_itself).
    clear - S1 H''. induction H''; auto. eapply shown_block; eauto. }
  assert (EL : forall ts, dump_loop (me_bytes m) (fun b => dump_bytecode ob (me_bytes m) (me_lits m) (block_dumps ob (me_lits m)) b ind) ind (S (length (me_bytes m))) 0 = (ts, None)
    <-> entries ob m ind code ts).
  { intros. apply (entries_text m ind 0 (me_bytes m) code Hd IH' []); auto. }
  assert (U : dump_method ob m ind = error_println (str "(") >>
      match me_triv m with
      | Some _ => raise_ AttributeError
      | None =>
          error_println (ind ++ str "<" ++ nat_str (length (me_locals m)) ++ str " locals, "
                         ++ py_str (me_max m) ++ str " stack, " ++ nat_str (length (me_bytes m))
                         ++ str " bc_count>") >>
          dump_loop (me_bytes m) (fun b => dump_bytecode ob (me_bytes m) (me_lits m) (block_dumps ob (me_lits m)) b ind) ind
                    (S (length (me_bytes m))) 0 >>
          error_println (ind ++ str ")")
      end) by (destruct m; reflexivity).
  rewrite U. clear U. rewrite then_ok. split.
  - intros H. destruct H as [m ind code' ts tl tx tb Ht Hd' He H1 H2 H3].
    apply decimal_str in H1, H3. apply written_str in H2. subst. rewrite Ht.
    rewrite (decodes_fun _ _ _ Hd' _ Hd) in He. apply EL in He.
    eexists. eexists. split; [apply println_ok; reflexivity|]. split; [|reflexivity].
    rewrite then_ok. eexists. eexists. split; [apply println_ok; reflexivity|]. split; [|reflexivity].
    rewrite then_ok. eexists. eexists. split; [exact He|]. split; [|reflexivity]. apply println_ok. reflexivity.
  - intros (t1 & t2 & H1 & H2 & ->). apply println_ok in H1. subst t1.
    destruct (me_triv m) eqn:Ht; [discriminate|].
    apply then_ok in H2. destruct H2 as (t3 & t4 & H3 & H4 & ->). apply println_ok in H3. subst t3.
    apply then_ok in H4. destruct H4 as (ts & t6 & H5 & H6 & ->). apply println_ok in H6. subst t6.
    apply EL in H5. econstructor; eauto; try (apply decimal_str; reflexivity). apply written_str. reflexivity.
Qed.

(** A class. *)
Theorem class_listing class invs :
  (forall s m m', In (s, Some m) invs -> shown m m' -> exists code, decodes 0 (me_bytes m') code) ->
  forall t, class_listed ob class invs t <-> dump ob class invs = (t, None).
Proof.
  induction invs as [|[s [m|]] invs IH]; intros Hs t; cbn [dump].
  - split; [intros H; inversion H; reflexivity|]. intros H. injection H as <-. constructor.
  - specialize (IH (fun s' m' m'' Hi => Hs s' m' m'' (or_intror Hi))).
    pose proof (listing m (fun m' => Hs s m m' (or_introl eq_refl))) as L.
    rewrite print_then. setoid_rewrite then_ok. split.
    + intros H. inversion H as [| |s0 m0 rest t0 ts H1 H2]; subst. apply L in H1. apply IH in H2.
      exists (t0 ++ ts). split; [eauto|]. rewrite <- !app_assoc. reflexivity.
    + intros (t' & (t1 & t2 & H1 & H2 & ->) & ->). apply L in H1. apply IH in H2.
      replace ((sym_str class ++ str ">>" ++ sym_str s ++ str " = ") ++ t1 ++ t2)
        with ((chars "#" ++ class ++ chars ">>#" ++ s ++ chars " = " ++ t1) ++ t2)
        by (unfold sym_str; cbn [app]; rewrite <- !app_assoc; cbn [app]; rewrite <- ?app_assoc; reflexivity).
      constructor; auto.
  - specialize (IH (fun s' m' m'' Hi => Hs s' m' m'' (or_intror Hi))).
    rewrite print_then. setoid_rewrite then_ok. split.
    + intros H. inversion H as [|s0 rest ts H1|]; subst. apply IH in H1.
      eexists. split; [eexists; exists ts; split; [apply println_ok; reflexivity|split; [exact H1|reflexivity]]|].
      unfold line. rewrite <- !app_assoc. cbn [app]. rewrite <- ?app_assoc. reflexivity.
    + intros (t' & (t1 & t2 & H1 & H2 & ->) & ->). apply println_ok in H1. subst t1. apply IH in H2.
      replace ((sym_str class ++ str ">>" ++ sym_str s ++ str " = ") ++ line (str "<primitive>") ++ t2)
        with (line (chars "#" ++ class ++ chars ">>#" ++ s ++ chars " = <primitive>") ++ t2)
        by (unfold line, sym_str; rewrite <- !app_assoc; cbn [app]; rewrite <- ?app_assoc; cbn [app]; rewrite <- ?app_assoc; reflexivity).
      constructor; auto.
Qed.
End Listing.
