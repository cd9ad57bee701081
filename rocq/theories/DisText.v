(** The listing is the one of the specification. *)
From Coq Require Import ZArith Bool String Ascii List Lia.
From Verif Require Import Base LexModel LexSpec ParseModel BcModel BcInterp NtxModel NtxSpec NtxProofs DisModel DisSpec.
Import ListNotations.
Open Scope nat_scope.
Open Scope list_scope.

(** * Numbers *)
Lemma snoc_inv {A} (s s' : list A) c c' : s ++ [c] = s' ++ [c'] -> s = s' /\ c = c'.
Proof. intros H. apply app_inj_tail in H. exact H. Qed.
Lemma digits10_fun c c' d : In (c, d) digits10 -> In (c', d) digits10 -> c = c'.
Proof.
  unfold digits10. simpl.
  intros H H'; repeat destruct H as [H|H]; try (injection H as <- <-); try contradiction;
    repeat destruct H' as [H'|H']; try (injection H' as <-); try discriminate; try contradiction; reflexivity.
Qed.
Lemma numeral_fun s n n' : numeral s n -> numeral s n' -> n = n'.
Proof.
  intros H. revert n'. induction H as [c d H|s n c d H IH Hd]; intros n' H'.
  - remember [c] as u eqn:E. destruct H' as [c' d' H'|s' n1 c' d' H' Hd'].
    + injection E as ->. apply digits10_char in H. apply digits10_char in H'. destruct H as [H _], H' as [H' _]. congruence.
    + exfalso. apply numeral_nonempty in H'. destruct s' as [|? [|? ?]]; try discriminate. congruence.
  - remember (s ++ [c]) as u eqn:E. destruct H' as [c' d' H'|s' n1 c' d' H' Hd'].
    + exfalso. apply numeral_nonempty in H. destruct s as [|? [|? ?]]; try discriminate. congruence.
    + apply snoc_inv in E. destruct E as [-> ->]. rewrite (IH _ H').
      apply digits10_char in Hd. apply digits10_char in Hd'. destruct Hd as [Hd _], Hd' as [Hd' _].
      assert (d = d') by congruence. lia.
Qed.
Lemma written_fun t z z' : written t z -> written t z' -> z = z'.
Proof.
  intros (u & Hu & _ & E) (u' & Hu' & _ & E').
  rewrite E in E'. clear E. destruct (Z.ltb_spec z 0), (Z.ltb_spec z' 0).
  - injection E' as <-. pose proof (numeral_fun _ _ _ Hu Hu'). lia.
  - exfalso. rewrite <- E' in Hu'. apply numeral_head in Hu'. tauto.
  - exfalso. rewrite E' in Hu. apply numeral_head in Hu. tauto.
  - rewrite <- E' in Hu'. pose proof (numeral_fun _ _ _ Hu Hu'). lia.
Qed.
Open Scope Z_scope.
(** How long numerals are. *)
Lemma numeral_below s n : numeral s n -> n < 10 ^ Z.of_nat (length s).
Proof.
  induction 1 as [c d H|s n c d H IH Hd].
  - apply digits10_char in H. cbn [length]. change (10 ^ Z.of_nat 1) with 10. lia.
  - apply digits10_char in Hd. rewrite app_length. cbn [length]. rewrite Nat2Z.inj_add, Z.pow_add_r by lia.
    change (10 ^ Z.of_nat 1) with 10. lia.
Qed.
Lemma numeral_above s n : numeral s n -> (forall u, s = "0"%char :: u -> u = []) ->
  n = 0 /\ length s = 1%nat \/ 10 ^ (Z.of_nat (length s) - 1) <= n.
Proof.
  induction 1 as [c d H|s n c d H IH Hd]; intros Z0.
  - apply digits10_char in H. cbn [length]. change (10 ^ (Z.of_nat 1 - 1)) with 1.
    destruct (Z.eq_dec d 0); [left; auto|right; lia].
  - right. rewrite app_length. cbn [length].
    assert (L : (length s <> 0)%nat) by (intros E; apply length_zero_iff_nil in E; eapply numeral_nonempty; eauto).
    destruct IH as [[-> E]|IH].
    + intros u ->. cbn [app] in Z0. specialize (Z0 _ eq_refl). destruct u; discriminate.
    + exfalso. destruct s as [|x [|? ?]]; try discriminate. inversion H as [c' d' H'|s' n' c' d' H' Hd' E1 E2].
      * subst. pose proof (Z0 [c]) as ZZ. cbn [app] in ZZ.
        assert (x = "0"%char) by (eapply digits10_fun; [eassumption|unfold digits10; simpl; auto]). subst x.
        specialize (ZZ eq_refl). discriminate.
      * apply numeral_nonempty in H'. destruct s' as [|? [|? ?]]; try discriminate. congruence.
    + apply digits10_char in Hd.
      replace (Z.of_nat (length s + 1) - 1) with (Z.of_nat (length s) - 1 + 1) by lia.
      rewrite Z.pow_add_r by lia. change (10 ^ 1) with 10. lia.
Qed.
Lemma numeral_only n : forall s s', numeral s n -> numeral s' n ->
  (forall u, s = "0"%char :: u -> u = []) -> (forall u, s' = "0"%char :: u -> u = []) -> s = s'.
Proof.
  intros s s' H H' Z0 Z0'.
  assert (L : length s = length s').
  { pose proof (numeral_below _ _ H) as B. pose proof (numeral_below _ _ H') as B'.
    pose proof (numeral_above _ _ H Z0) as A. pose proof (numeral_above _ _ H' Z0') as A'.
    destruct A as [[-> E]|A], A' as [[E0 E']|A']; try congruence.
    - assert (0 < 10 ^ (Z.of_nat (length s') - 1)).
      { apply Z.pow_pos_nonneg; [lia|]. apply numeral_nonempty in H'. destruct s'; [congruence|]. cbn [length]. lia. }
      lia.
    - subst n. assert (0 < 10 ^ (Z.of_nat (length s) - 1)).
      { apply Z.pow_pos_nonneg; [lia|]. apply numeral_nonempty in H. destruct s; [congruence|]. cbn [length]. lia. }
      lia.
    - assert (T : forall a b : nat, 10 ^ (Z.of_nat a - 1) < 10 ^ Z.of_nat b -> (a <= b)%nat).
      { intros a b C. apply Z.pow_lt_mono_r_iff in C; lia. }
      pose proof (T (length s) (length s') ltac:(lia)). pose proof (T (length s') (length s) ltac:(lia)). lia. }
  clear Z0 Z0'. revert s' H' L. induction H as [c d H|s n c d H IH Hd]; intros s' H' L.
  - destruct H' as [c' d' H'|s'' n' c' d' H' Hd'].
    + f_equal. eapply digits10_fun; eauto.
    + apply numeral_nonempty in H'. rewrite app_length in L. destruct s''; [congruence|]. cbn [length] in L. lia.
  - remember (10 * n + d) as q eqn:E. destruct H' as [c' d' H'|s'' n' c' d' H' Hd'].
    + apply numeral_nonempty in H. rewrite app_length in L. destruct s; [congruence|]. cbn [length] in L. lia.
    + rewrite !app_length in L. cbn [length] in L.
      pose proof (digits10_char _ _ Hd) as (_ & R & _). pose proof (digits10_char _ _ Hd') as (_ & R' & _).
      assert (n' = n /\ d' = d) as [-> ->] by lia.
      rewrite (IH s'' H') by lia. f_equal. f_equal. eapply digits10_fun; eauto.
Qed.
Lemma written_str t z : written t z <-> t = py_str z.
Proof.
  split; [|intros ->; apply py_str_written].
  intros (u & Hu & Z0 & ->). destruct (py_str_written z) as (u' & Hu' & Z0' & ->).
  rewrite (numeral_only _ _ _ Hu Hu' Z0 Z0'). reflexivity.
Qed.
Open Scope nat_scope.
Lemma decimal_str n t : decimal n t <-> t = nat_str n.
Proof. apply written_str. Qed.
Lemma nat_str_numeral n : numeral (nat_str n) (Z.of_nat n) /\ forall u, nat_str n = "0"%char :: u -> u = [].
Proof.
  destruct (py_str_written (Z.of_nat n)) as (u & Hu & Z0 & E). fold (nat_str n) in E.
  destruct (Z.ltb_spec (Z.of_nat n) 0); [lia|]. subst u. rewrite Z.abs_eq in Hu by lia. auto.
Qed.
Lemma nat_str_length n k : 1 <= k -> length (nat_str n) <= k <-> (Z.of_nat n < 10 ^ Z.of_nat k)%Z.
Proof.
  intros K. destruct (nat_str_numeral n) as [H Z0].
  pose proof (numeral_below _ _ H) as B. pose proof (numeral_above _ _ H Z0) as A. split.
  - intros L. eapply Z.lt_le_trans; [exact B|]. apply Z.pow_le_mono_r; lia.
  - intros C. destruct A as [[E A]|A]; [lia|].
    assert (D : (10 ^ (Z.of_nat (length (nat_str n)) - 1) < 10 ^ Z.of_nat k)%Z) by lia.
    apply Z.pow_lt_mono_r_iff in D; lia.
Qed.
Lemma nat_str_pos n : 1 <= length (nat_str n).
Proof.
  destruct (nat_str_numeral n) as [H _]. apply numeral_nonempty in H. destruct (nat_str n); [congruence|]. cbn [length]. lia.
Qed.
Definition pad (b : nat) : text :=
  (if b <? 10 then str " " else []) ++ (if b <? 100 then str " " else []) ++ str " ".
Lemma column_str n t : column n t <-> t = pad n ++ nat_str n.
Proof.
  assert (P : exists k, pad n = repeat " "%char (S k) /\ length (pad n ++ nat_str n) = Nat.max 4 (S (length (nat_str n)))).
  { pose proof (nat_str_length n 1 ltac:(lia)) as L1. pose proof (nat_str_length n 2 ltac:(lia)) as L2.
    change (10 ^ Z.of_nat 1)%Z with 10%Z in L1. change (10 ^ Z.of_nat 2)%Z with 100%Z in L2.
    pose proof (nat_str_pos n). rewrite app_length. unfold pad.
    destruct (Nat.ltb_spec n 10), (Nat.ltb_spec n 100); try lia.
    - exists 2. split; [reflexivity|]. cbn [str list_ascii_of_string app length]. lia.
    - exists 1. split; [reflexivity|]. cbn [str list_ascii_of_string app length]. lia.
    - exists 0. split; [reflexivity|]. cbn [str list_ascii_of_string app length]. lia. }
  destruct P as (k & P & L). split.
  - intros (k' & d & Hd & -> & L'). apply decimal_str in Hd. subst d. rewrite P in *.
    rewrite !app_length, !repeat_length in L, L'. assert (k' = k) by lia. subst. reflexivity.
  - intros ->. exists k, (nat_str n). rewrite decimal_str. rewrite <- P. auto.
Qed.

(** * Bytecodes *)
Lemma of_num_num b : of_num (num b) = Some b.
Proof. destruct b; reflexivity. Qed.
Lemma name_num b : bytecode_as_str (num b) = Ok (chars (mnemonic b)).
Proof. destruct b; reflexivity. Qed.
Lemma len_num b : b <> B_invalid -> bytecode_length (num b) = Ok (blen b).
Proof. unfold bytecode_length. rewrite of_num_num. destruct b; congruence. Qed.
Lemma blen_pos b : b <> B_invalid -> 1 <= blen b <= 3.
Proof. destruct b; cbn; intros; try lia. congruence. Qed.

(** * Writing *)
Lemma then_ok a b t : a >> b = (t, None) <-> exists t1 t2, a = (t1, None) /\ b = (t2, None) /\ t = t1 ++ t2.
Proof.
  destruct a as [ta [e|]], b as [tb eb]; cbn [then_ fst snd]; split.
  - intros H. discriminate.
  - intros (? & ? & ? & _). discriminate.
  - intros H. injection H as <- ->. eauto.
  - intros (t1 & t2 & E1 & E2 & ->). injection E1 as <-. injection E2 as <- ->. reflexivity.
Qed.
Lemma then_print t b : error_print t >> b = (t ++ fst b, snd b).
Proof. reflexivity. Qed.
Lemma print_then t b r : error_print t >> b = (r, None) <-> exists t', b = (t', None) /\ r = t ++ t'.
Proof.
  rewrite then_ok. split.
  - intros (t1 & t2 & E1 & E2 & ->). injection E1 as <-. eauto.
  - intros (t' & -> & ->). exists t, t'. auto.
Qed.

Section Lines.
Variable ob : objects.
Definition block_dumps (lits : list literal) : list (text -> written_) :=
  map (fun l => match l with
                | LM m => dump_method ob m
                | _ => fun _ => error_println (str "(") >> raise_ AttributeError
                end) lits.
(** What is written after the name. *)
Definition op_text (bytes : list nat) (lits : list literal) (blocks : list (text -> written_))
  (b : nat) (indent : text) (c : bc) : written_ :=
  let arg1 := use (get_bytecode bytes (b + 1)) in
  let arg2 := use (get_bytecode bytes (b + 2)) in
  let constant := use (get_constant bytes lits b) in
  if blen c =? 1 then error_println [] else
  match c with
  | B_push_local | B_pop_local =>
      arg1 (fun i => arg2 (fun c =>
      error_println (str "local: " ++ nat_str i ++ str ", context: " ++ nat_str c)))
  | B_push_argument | B_pop_argument =>
      arg1 (fun i => arg2 (fun c =>
      error_println (str "argument: " ++ nat_str i ++ str ", context " ++ nat_str c)))
  | B_push_frame | B_pop_frame =>
      arg1 (fun i => error_println (str "idx: " ++ nat_str i))
  | B_push_inner | B_pop_inner =>
      arg1 (fun i => arg2 (fun c =>
      error_println (str "idx: " ++ nat_str i ++ str ", context: " ++ nat_str c)))
  | B_push_frame_0 | B_push_frame_1 | B_push_frame_2
         | B_pop_frame_0 | B_pop_frame_1 | B_pop_frame_2
         | B_push_inner_0 | B_push_inner_1 | B_push_inner_2
         | B_pop_inner_0 | B_pop_inner_1 | B_pop_inner_2 =>
      error_println []
  | B_push_field | B_pop_field | B_inc_field_push | B_inc_field =>
      use (match o_fields ob with
           | Some fs => i <- get_bytecode bytes (b + 1) ;;
                        match nth_error fs i with Some f => Ok (sym_str f) | None => Err IndexError end
           | None => Ok (str "Holder Not Set")
           end) (fun field_name =>
      arg1 (fun i => arg2 (fun c =>
      error_println (str "(index: " ++ nat_str i ++ str ", context " ++ nat_str c
                     ++ str ") field: " ++ field_name))))
  | B_push_block =>
      arg1 (fun i => error_print (str "block: (index: " ++ nat_str i ++ str ") ")) >>
      use (get_constant bytes blocks b) (fun dump => dump (indent ++ str "	"))
  | B_push_constant =>
      constant (fun l => arg1 (fun i => use (lit_str ob l) (fun s =>
      error_println (str "(index: " ++ nat_str i ++ str ") value: (" ++ s ++ str " class: "
                     ++ lit_class ob l ++ str ") "))))
  | B_push_global =>
      arg1 (fun i => constant (fun l => use (lit_str ob l) (fun s =>
      error_println (str "(index: " ++ nat_str i ++ str ") value: " ++ s))))
  | B_send_1 | B_send_2 | B_send_3 | B_send_n | B_super_send
         | B_q_super_send_1 | B_q_super_send_2 | B_q_super_send_3 | B_q_super_send_n =>
      arg1 (fun i => constant (fun l => use (lit_str ob l) (fun s =>
      error_println (str "(index: " ++ nat_str i ++ str ") signature: " ++ s))))
  | B_return_non_local =>
      arg1 (fun c => error_println (str "context: " ++ nat_str c))
  | _ =>
      if is_jump (num c) then
        arg1 (fun x => arg2 (fun y =>
        let offset := compute_offset x y in
        let target := if (num c =? num B_jump_backward) || (num c =? num B_jump2_backward)
                      then (Z.of_nat b - Z.of_nat offset)%Z else (Z.of_nat b + Z.of_nat offset)%Z in
        error_println (str "(jump offset: " ++ nat_str offset ++ str " -> jump target: "
                       ++ py_str target ++ str ")")))
      else error_println (str "<incorrect bytecode>")
  end.
Lemma dump_bytecode_at bytes lits blocks b indent c : nth_error bytes b = Some (num c) -> c <> B_invalid ->
  dump_bytecode ob bytes lits blocks b indent =
  error_print (pad b ++ nat_str b ++ str ":" ++ str (mnemonic c) ++ str "  ") >>
  op_text bytes lits blocks b indent c.
Proof.
  intros Hb Hc. assert (G : get_bytecode bytes b = Ok (num c)) by (unfold get_bytecode; rewrite Hb; reflexivity).
  unfold dump_bytecode, op_text. rewrite G. cbn [use].
  rewrite name_num. cbn [use]. rewrite len_num by auto. cbn [use]. rewrite of_num_num.
  set (rest := if blen c =? 1 then _ else _).
  clearbody rest.
  unfold pad. destruct rest as [t e]. destruct (b <? 10), (b <? 100);
    cbn [then_ error_print fst snd app str list_ascii_of_string]; rewrite <- ?app_assoc;
    cbn [app]; rewrite <- ?app_assoc; reflexivity.
Qed.

(** Which texts can follow the name. *)
Lemma use_ok {A} (r : res A) f t : use r f = (t, None) <-> exists a, r = Ok a /\ f a = (t, None).
Proof.
  destruct r; cbn [use].
  - split; [eauto|]. intros (a' & E & H). injection E as <-. exact H.
  - split; [discriminate|]. intros (a' & E & _). discriminate.
Qed.
Lemma println_ok t r : error_println t = (r, None) <-> r = line t.
Proof. unfold error_println, line. split; intros H; [injection H as <-; reflexivity|rewrite H; reflexivity]. Qed.
Variable m : meth.
Notation bytes := (me_bytes m).
Notation lits := (me_lits m).
Lemma op_text_operands a c ops indent t : c <> B_push_block -> c <> B_invalid ->
  1 + length ops = blen c ->
  (forall i n, nth_error ops i = Some n -> nth_error bytes (a + S i) = Some n) ->
  op_text bytes lits (block_dumps lits) a indent c = (t, None) <->
  exists to, operands ob m a c ops to /\ t = line to.
Proof.
  intros Hn Hi Hl Ho. unfold op_text, get_constant, get_bytecode.
  assert (A1 : forall n, nth_error ops 0 = Some n -> nth_error bytes (a + 1) = Some n) by (intros; apply Ho; auto).
  assert (A2 : forall n, nth_error ops 1 = Some n -> nth_error bytes (a + 2) = Some n) by (intros; apply Ho; auto).
  clear Ho.
  destruct (blen c =? 1) eqn:E.
  { apply Nat.eqb_eq in E. destruct ops; [|cbn [length] in Hl; lia]. rewrite println_ok. split.
    - intros ->. exists []. split; [constructor; auto|reflexivity].
    - intros (to & H & ->). inversion H; subst; try reflexivity; destruct c; discriminate. }
  apply Nat.eqb_neq in E.
  destruct ops as [|x [|y [|z ops]]]; cbn [length] in Hl; try lia;
    [|specialize (A2 y eq_refl)|pose proof (blen_pos c Hi); lia]; specialize (A1 x eq_refl); rewrite ?A1, ?A2; cbn [use].
  all: destruct c; try congruence; try discriminate; cbn [use].
  all: try (rewrite println_ok; split;
    [intros ->; eexists; split; [econstructor; try apply decimal_str; try reflexivity; cbn; auto 20|reflexivity]
    |intros (to & H & ->); inversion H; subst; cbn in *; try discriminate; try (intuition discriminate);
     repeat match goal with Hd : decimal _ _ |- _ => apply decimal_str in Hd; subst end; reflexivity]).
  all: try match goal with |- context [is_jump ?n] => let v := eval vm_compute in (is_jump n) in change (is_jump n) with v end.
  all: try match goal with |- context [orb ?p ?q] => let v := eval vm_compute in (orb p q) in change (orb p q) with v end.
  all: cbn [use Base.bind].
  (* the block without context *)
  all: try (rewrite println_ok; split;
    [intros ->; eexists; split; [apply about_block_no_ctx|reflexivity]
    |intros (to & H & ->); inversion H; subst; cbn in *; try discriminate; try (intuition discriminate); reflexivity]).
  (* jumps *)
  all: try (rewrite println_ok; unfold compute_offset; rewrite (Nat.mul_comm y 256); split;
    [intros ->; eexists; split;
      [first [eapply about_jump; [reflexivity|discriminate|apply decimal_str; reflexivity|
                apply decimal_str; unfold nat_str; rewrite Nat2Z.inj_add; reflexivity]
             |eapply about_back; [reflexivity|apply decimal_str; reflexivity|apply written_str; reflexivity]]
      |reflexivity]
    |intros (to & H & ->); inversion H; subst; cbn [In jump_form] in *; try discriminate; try (intuition discriminate);
     repeat match goal with Hd : decimal _ _ |- _ => apply decimal_str in Hd; subst
                          | Hd : written _ _ |- _ => apply written_str in Hd; subst end;
     unfold nat_str; rewrite ?Nat2Z.inj_add; try reflexivity; congruence]).
  (* literals *)
  all: try (destruct (nth_error lits x) as [l|] eqn:Ex; cbn [use];
    [destruct (lit_str ob l) as [s|] eqn:Es; cbn [use]; [rewrite println_ok; split|split]|split];
    try discriminate;
    try (intros ->; eexists; split; [econstructor; try apply decimal_str; try reflexivity; try eassumption; cbn [In]; auto 20|reflexivity]);
    (intros (to & H & Et); inversion H; subst; cbn [In jump_form] in *; try discriminate; try (intuition discriminate);
     repeat match goal with Hd : decimal _ _ |- _ => apply decimal_str in Hd; subst end;
     try congruence;
     match goal with H1 : nth_error lits ?j = Some ?l1, H2 : nth_error lits ?j = Some ?l2 |- _ =>
       assert (l1 = l2) by congruence; subst end; try congruence;
     match goal with H1 : lit_str ob ?l = Ok ?a, H2 : lit_str ob ?l = Ok ?b |- _ =>
       assert (a = b) by congruence; subst end; reflexivity)).
  (* fields *)
  all: split;
    [intros H; apply use_ok in H; destruct H as (f & H1 & H2); apply println_ok in H2; subst t; eexists; split;
       [|reflexivity];
       destruct (o_fields ob) as [fs|] eqn:Ef; [destruct (nth_error fs x) as [f'|] eqn:Ex; [|discriminate]|];
       injection H1 as <-; [eapply about_field|eapply about_no_class];
       try (apply decimal_str; reflexivity); try eassumption; cbn [In]; tauto
    |intros (to & H & ->); apply use_ok; inversion H; subst; try discriminate;
       try (exfalso; cbn [In] in *; intuition discriminate)].
  all: match goal with Ho : o_fields ob = _ |- _ => rewrite Ho end;
    try match goal with Hf : nth_error _ _ = Some _ |- context [nth_error ?fs _] => rewrite Hf end;
    eexists; split; [reflexivity|]; apply println_ok;
    repeat match goal with Hd : decimal _ _ |- _ => apply decimal_str in Hd; subst end; reflexivity.
Qed.
End Lines.
