(** The code can be read back from the listing. *)
From Coq Require Import ZArith Bool String Ascii List Lia.
From Verif Require Import Base LexModel LexSpec ParseModel BcModel BcInterp NtxModel NtxSpec NtxProofs DisModel DisSpec DisText DisProofs.
Import ListNotations.
Open Scope nat_scope.
Open Scope list_scope.

(** * Cutting texts *)
(** Texts without a character are cut off at the first one. *)
Lemma cut (P : ascii -> Prop) (a b : text) c d r s : Forall (fun x => ~ P x) a -> Forall (fun x => ~ P x) b -> P c -> P d ->
  a ++ c :: r = b ++ d :: s -> a = b /\ c = d /\ r = s.
Proof.
  intros Ha. revert b. induction Ha as [|x a Hx _ IH]; intros b Hb Hc Hd E.
  - destruct Hb as [|y b Hy Hb]; cbn [app] in E; injection E as E1 E2; [auto|]. subst. contradiction.
  - destruct Hb as [|y b Hy Hb]; cbn [app] in E; injection E as E1 E2; [subst; contradiction|].
    subst y. destruct (IH b Hb Hc Hd E2) as (-> & -> & ->). auto.
Qed.
Definition is_digit (c : ascii) : Prop := exists d, In (c, d) digits10.
Lemma numeral_digits s n : numeral s n -> Forall is_digit s.
Proof.
  induction 1 as [c d H|s n c d H IH Hd].
  - constructor; [exists d; auto|constructor].
  - apply Forall_app. split; auto. constructor; [exists d; auto|constructor].
Qed.
Lemma decimal_digits n t : decimal n t -> Forall is_digit t.
Proof. rewrite decimal_str. intros ->. eapply numeral_digits, nat_str_numeral. Qed.
Lemma decimal_fun n n' t : decimal n t -> decimal n' t -> n = n'.
Proof. intros H H'. apply Nat2Z.inj. eapply written_fun; eauto. Qed.
Lemma not_digit c : existsb (fun p => Ascii.eqb c (fst p)) digits10 = false -> ~ is_digit c.
Proof.
  intros H (d & Hd). assert (C : existsb (fun p => Ascii.eqb c (fst p)) digits10 = true).
  { apply existsb_exists. exists (c, d). split; auto. apply Ascii.eqb_refl. }
  congruence.
Qed.
(** Two numbers in the same place are the same. *)
Lemma cut_decimal n n' t t' c c' r r' : decimal n t -> decimal n' t' -> ~ is_digit c -> ~ is_digit c' ->
  t ++ c :: r = t' ++ c' :: r' -> n = n' /\ c :: r = c' :: r'.
Proof.
  intros H H' Hc Hc' E.
  destruct (cut (fun x => ~ is_digit x) t t' c c' r r') as (-> & -> & ->); auto.
  - eapply Forall_impl; [|eapply decimal_digits; exact H]. auto.
  - eapply Forall_impl; [|eapply decimal_digits; exact H']. auto.
  - split; auto. eapply decimal_fun; eauto.
Qed.
Lemma one_line_app a b : one_line (a ++ b) <-> one_line a /\ one_line b.
Proof. unfold one_line. rewrite in_app_iff. tauto. Qed.
Lemma one_line_chars s : existsb (Ascii.eqb newline) (chars s) = false -> one_line (chars s).
Proof.
  intros H Hi. assert (C : existsb (Ascii.eqb newline) (chars s) = true).
  { apply existsb_exists. exists newline. split; auto. }
  congruence.
Qed.
Lemma one_line_decimal n t : decimal n t -> one_line t.
Proof.
  intros H Hi. apply decimal_digits in H. rewrite Forall_forall in H. specialize (H _ Hi).
  revert H. apply not_digit. reflexivity.
Qed.
Lemma one_line_written t z : written t z -> one_line t.
Proof.
  intros (u & Hu & _ & ->). apply numeral_digits in Hu. rewrite Forall_forall in Hu.
  assert (N : ~ is_digit newline) by (apply not_digit; reflexivity).
  destruct (z <? 0)%Z; intros Hi; [destruct Hi as [Hi|Hi]; [discriminate|]|]; apply N, Hu, Hi.
Qed.
Lemma cut_line a b r s : one_line a -> one_line b -> line a ++ r = line b ++ s -> a = b /\ r = s.
Proof.
  unfold line. rewrite <- !app_assoc. cbn [app]. intros Ha Hb E.
  destruct (cut (fun x => x = newline) a b newline newline r s) as (-> & _ & ->); auto.
  - apply Forall_forall. intros x Hx ->. contradiction.
  - apply Forall_forall. intros x Hx ->. contradiction.
Qed.

(** * Names *)
Definition find_name (t : text) : option bc := find (fun b => text_eqb (chars (mnemonic b)) t) all_bc.
Lemma find_mnemonic b : find_name (chars (mnemonic b)) = Some b.
Proof. destruct b; vm_compute; reflexivity. Qed.
Lemma mnemonic_plain b : Forall (fun c => c <> " "%char) (chars (mnemonic b)).
Proof.
  apply Forall_forall. intros x Hx ->. assert (E : existsb (Ascii.eqb " "%char) (chars (mnemonic b)) = false) by (destruct b; reflexivity).
  assert (C : existsb (Ascii.eqb " "%char) (chars (mnemonic b)) = true) by (apply existsb_exists; exists " "%char; split; auto).
  congruence.
Qed.
Lemma mnemonic_line b : one_line (chars (mnemonic b)).
Proof. apply one_line_chars. destruct b; reflexivity. Qed.

(** * One instruction *)
Section Back.
Variable ob : objects.
Definition selector_bc := [B_push_global; B_send_1; B_send_2; B_send_3; B_send_n; B_super_send].
(** Operands of plain methods are written within a line. *)
Lemma operands_line m a b ops t : plain_method ob m -> operands ob m a b ops t -> one_line t.
Proof.
  intros (_ & _ & PL & PF) H.
  destruct H; repeat (apply one_line_app; split);
    try (apply one_line_chars; reflexivity);
    try (eapply one_line_decimal; eassumption); try (eapply one_line_written; eassumption);
    try (intros []); try (eapply PF; eassumption);
    match goal with H1 : nth_error (me_lits m) _ = Some ?l, H2 : lit_str ob ?l = Ok _ |- _ => apply (PL _ _ _ H1 H2) end.
Qed.
Lemma bytes_offset x y x' y' : x < 256 -> x' < 256 -> x + 256 * y = x' + 256 * y' -> x = x' /\ y = y'.
Proof. lia. Qed.

Inductive kind := K0 | KLocal | KArg | KFrame | KInner | KFixed | KField | KConst | KGlobal | KSend | KRet | KFwd | KBack | KNoCtx | KBlock.
Definition kind_of (b : bc) : kind :=
  match b with
  | B_push_local | B_pop_local => KLocal
  | B_push_argument | B_pop_argument => KArg
  | B_push_frame | B_pop_frame => KFrame
  | B_push_inner | B_pop_inner => KInner
  | B_push_frame_0 | B_push_frame_1 | B_push_frame_2 | B_pop_frame_0 | B_pop_frame_1 | B_pop_frame_2
  | B_push_inner_0 | B_push_inner_1 | B_push_inner_2 | B_pop_inner_0 | B_pop_inner_1 | B_pop_inner_2 => KFixed
  | B_push_field | B_pop_field | B_inc_field | B_inc_field_push => KField
  | B_push_constant => KConst
  | B_push_global => KGlobal
  | B_send_1 | B_send_2 | B_send_3 | B_send_n | B_super_send
  | B_q_super_send_1 | B_q_super_send_2 | B_q_super_send_3 | B_q_super_send_n => KSend
  | B_return_non_local => KRet
  | B_jump_backward | B_jump2_backward => KBack
  | B_push_block_no_ctx => KNoCtx
  | B_push_block => KBlock
  | _ => match jump_form b with Some _ => KFwd | None => K0 end
  end.
Definition index_then (i : nat) (s : string) (rest t : text) : Prop :=
  exists ti, decimal i ti /\ t = chars "(index: " ++ ti ++ chars s ++ rest.
Lemma operands_kind m a b ops t : operands ob m a b ops t ->
  match kind_of b with
  | K0 => ops = []
  | KLocal => exists i c ti tc, ops = [i; c] /\ decimal i ti /\ decimal c tc /\
      t = chars "local: " ++ ti ++ chars ", context: " ++ tc
  | KArg => exists i c ti tc, ops = [i; c] /\ decimal i ti /\ decimal c tc /\
      t = chars "argument: " ++ ti ++ chars ", context " ++ tc
  | KInner => exists i c ti tc, ops = [i; c] /\ decimal i ti /\ decimal c tc /\
      t = chars "idx: " ++ ti ++ chars ", context: " ++ tc
  | KField => exists i c ti tc rest, ops = [i; c] /\ decimal i ti /\ decimal c tc /\
      t = chars "(index: " ++ ti ++ chars ", context " ++ tc ++ chars ") field: " ++ rest
  | KConst => exists i rest, ops = [i] /\ index_then i ") value: (" rest t
  | KGlobal => exists i l s, ops = [i] /\ nth_error (me_lits m) i = Some l /\ lit_str ob l = Ok s /\ index_then i ") value: " s t
  | KSend => exists i l s, ops = [i] /\ nth_error (me_lits m) i = Some l /\ lit_str ob l = Ok s /\ index_then i ") signature: " s t
  | KRet => exists c tc, ops = [c] /\ decimal c tc /\ t = chars "context: " ++ tc
  | KFwd | KBack => exists x y to rest, ops = [x; y] /\ decimal (x + 256 * y) to /\
      t = chars "(jump offset: " ++ to ++ chars " -> jump target: " ++ rest
  | KBlock => False
  | KFrame | KFixed | KNoCtx => True
  end.
Proof.
  intros H.
  destruct H as [b Hl|b i c ti tc Hi Di Dc|b i c ti tc Hi Di Dc|b i c ti Hi Di|b i c ti tc Hi Di Dc|b i c Hi
    |b i c ti tc fs f Hi Di Dc Hf Hn|b i c ti tc Hi Di Dc Hf|i ti l s Di Hn Hs|i ti l s Di Hn Hs|b i ti l s Hi Di Hn Hs
    |c tc Dc|b x y tof tto k wide Hj Hk Do Dt|b x y tof tto wide Hj Do Dt|i].
  all: try (cbn [In] in Hi; repeat (destruct Hi as [<-|Hi]); try contradiction; cbn [kind_of]).
  all: try (cbn [kind_of]; eauto 8; fail).
  - destruct b; try discriminate Hl; reflexivity.
  - exists i, c, ti, tc, ("#"%char :: f). auto.
  - exists i, c, ti, tc, ("#"%char :: f). auto.
  - exists i, c, ti, tc, ("#"%char :: f). auto.
  - exists i, c, ti, tc, ("#"%char :: f). auto.
  - exists i, c, ti, tc, (chars "Holder Not Set"). auto.
  - exists i, c, ti, tc, (chars "Holder Not Set"). auto.
  - exists i, c, ti, tc, (chars "Holder Not Set"). auto.
  - exists i, c, ti, tc, (chars "Holder Not Set"). auto.
  - cbn [kind_of]. exists i, (s ++ chars " class: " ++ lit_class ob l ++ chars ") "). split; auto. exists ti. auto.
  - cbn [kind_of]. exists i, l, s. repeat split; auto. exists ti. auto.
  - exists i, l, s. repeat split; auto. exists ti. auto.
  - exists i, l, s. repeat split; auto. exists ti. auto.
  - exists i, l, s. repeat split; auto. exists ti. auto.
  - exists i, l, s. repeat split; auto. exists ti. auto.
  - exists i, l, s. repeat split; auto. exists ti. auto.
  - exists i, l, s. repeat split; auto. exists ti. auto.
  - exists i, l, s. repeat split; auto. exists ti. auto.
  - exists i, l, s. repeat split; auto. exists ti. auto.
  - exists i, l, s. repeat split; auto. exists ti. auto.
  - assert (E : kind_of b = KFwd) by (destruct b; try discriminate Hj; try reflexivity; injection Hj; congruence).
    rewrite E. exists x, y, tof, (tto ++ chars ")"). auto.
  - assert (E : kind_of b = KBack) by (destruct b; try discriminate Hj; reflexivity).
    rewrite E. exists x, y, tof, (tto ++ chars ")"). auto.
Qed.
Ltac nd := apply not_digit; reflexivity.
Lemma cut_pair (p : string) i i' ti ti' (s : string) r r' : decimal i ti -> decimal i' ti' ->
  existsb (fun p => Ascii.eqb (hd " "%char (chars s)) (fst p)) digits10 = false -> chars s <> [] ->
  chars p ++ ti ++ chars s ++ r = chars p ++ ti' ++ chars s ++ r' -> i = i' /\ r = r'.
Proof.
  intros Hi Hi' Hd Hn E. apply app_inv_head in E. destruct (chars s) as [|c q] eqn:Es; [congruence|].
  cbn [app hd] in *. destruct (cut_decimal i i' ti ti' c c _ _ Hi Hi' (not_digit _ Hd) (not_digit _ Hd) E) as [-> E'].
  split; auto. injection E' as E'. apply app_inv_head in E'. exact E'.
Qed.
Lemma index_then_back i i' s r r' t : chars s <> [] ->
  existsb (fun p => Ascii.eqb (hd " "%char (chars s)) (fst p)) digits10 = false ->
  index_then i s r t -> index_then i' s r' t -> i = i' /\ r = r'.
Proof.
  intros Hn Hd (ti & Hi & ->) (ti' & Hi' & E). eapply cut_pair; eauto.
Qed.
Ltac side := try reflexivity; try discriminate.
Lemma operands_back m m' a b ops ops' t : told b -> b <> B_push_block ->
  Forall (fun n => n < 256) ops -> Forall (fun n => n < 256) ops' ->
  operands ob m a b ops t -> operands ob m' a b ops' t ->
  ops = ops' /\
  (forall i t1 t2, ops = [i] -> In b selector_bc -> nth_error (me_lits m) i = Some (LS t1) ->
     nth_error (me_lits m') i = Some (LS t2) -> t1 = t2).
Proof.
  intros Ht Hb B B' H H'. apply operands_kind in H, H'.
  assert (NS : forall k, kind_of b = k -> k <> KGlobal -> k <> KSend -> ~ In b selector_bc).
  { intros k E K1 K2 Hi. unfold selector_bc in Hi. cbn [In] in Hi. repeat (destruct Hi as [<-|Hi]); try contradiction; cbn [kind_of] in E; congruence. }
  destruct (kind_of b) eqn:K; try specialize (NS _ eq_refl ltac:(discriminate) ltac:(discriminate)).
  - subst. split; auto. intros i ? ? E. discriminate.
  - destruct H as (i & c & ti & tc & -> & Di & Dc & ->), H' as (i' & c' & ti' & tc' & -> & Di' & Dc' & E).
    apply cut_pair with (i := i) (i' := i') in E; side; auto. destruct E as [-> ->].
    rewrite (decimal_fun _ _ _ Dc Dc'). split; auto. intros i ? ? E. discriminate.
  - destruct H as (i & c & ti & tc & -> & Di & Dc & ->), H' as (i' & c' & ti' & tc' & -> & Di' & Dc' & E).
    apply cut_pair with (i := i) (i' := i') in E; side; auto. destruct E as [-> ->].
    rewrite (decimal_fun _ _ _ Dc Dc'). split; auto. intros i ? ? E. discriminate.
  - exfalso. apply Ht. destruct b; try discriminate K; cbn [In]; auto 20.
  - destruct H as (i & c & ti & tc & -> & Di & Dc & ->), H' as (i' & c' & ti' & tc' & -> & Di' & Dc' & E).
    apply cut_pair with (i := i) (i' := i') in E; side; auto. destruct E as [-> ->].
    rewrite (decimal_fun _ _ _ Dc Dc'). split; auto. intros i ? ? E. discriminate.
  - exfalso. apply Ht. destruct b; try discriminate K; cbn [In]; auto 20.
  - destruct H as (i & c & ti & tc & r & -> & Di & Dc & ->), H' as (i' & c' & ti' & tc' & r' & -> & Di' & Dc' & E).
    apply cut_pair with (i := i) (i' := i') in E; side; auto. destruct E as [-> E].
    pose proof (cut_pair "" c c' tc tc' ") field: " r r' Dc Dc' eq_refl ltac:(discriminate) E) as [-> _].
    split; auto. intros i ? ? E'. discriminate.
  - destruct H as (i & r & -> & Hx), H' as (i' & r' & -> & Hx').
    destruct (index_then_back _ _ ") value: (" _ _ _ ltac:(discriminate) eq_refl Hx Hx') as [-> _]. split; auto. tauto.
  - destruct H as (i & l & s & -> & Hn & Hs & Hx), H' as (i' & l' & s' & -> & Hn' & Hs' & Hx').
    destruct (index_then_back _ _ ") value: " _ _ _ ltac:(discriminate) eq_refl Hx Hx') as [-> ->]. split; auto.
    intros j t1 t2 Ej _ E1 E2. injection Ej as <-. rewrite Hn in E1. rewrite Hn' in E2. injection E1 as ->. injection E2 as ->.
    cbn [lit_str] in Hs, Hs'. unfold sym_str in *. congruence.
  - destruct H as (i & l & s & -> & Hn & Hs & Hx), H' as (i' & l' & s' & -> & Hn' & Hs' & Hx').
    destruct (index_then_back _ _ ") signature: " _ _ _ ltac:(discriminate) eq_refl Hx Hx') as [-> ->]. split; auto.
    intros j t1 t2 Ej _ E1 E2. injection Ej as <-. rewrite Hn in E1. rewrite Hn' in E2. injection E1 as ->. injection E2 as ->.
    cbn [lit_str] in Hs, Hs'. unfold sym_str in *. congruence.
  - destruct H as (c & tc & -> & Dc & ->), H' as (c' & tc' & -> & Dc' & E). apply app_inv_head in E. subst tc'.
    rewrite (decimal_fun _ _ _ Dc Dc'). split; auto. tauto.
  - destruct H as (x & y & to & r & -> & Do & ->), H' as (x' & y' & to' & r' & -> & Do' & E).
    apply cut_pair with (i := x + 256 * y) (i' := x' + 256 * y') in E; side; auto. destruct E as [E _].
    inversion B; inversion B'; subst. apply bytes_offset in E; auto. destruct E as [-> ->]. split; auto. intros i ? ? E'. discriminate.
  - destruct H as (x & y & to & r & -> & Do & ->), H' as (x' & y' & to' & r' & -> & Do' & E).
    apply cut_pair with (i := x + 256 * y) (i' := x' + 256 * y') in E; side; auto. destruct E as [E _].
    inversion B; inversion B'; subst. apply bytes_offset in E; auto. destruct E as [-> ->]. split; auto. intros i ? ? E'. discriminate.
  - exfalso. apply Ht. destruct b; try discriminate K; cbn [In]; auto 20.
  - contradiction.
Qed.

(** * Methods *)
Definition all_plain (m : meth) : Prop := forall m', shown m m' -> plain_method ob m'.
Definition good_ins (m : meth) (x : ins) : Prop :=
  plain_method ob m /\ told (snd (fst x)) /\ Forall (fun n => n < 256) (snd x) /\
  forall i m', snd (fst x) = B_push_block -> snd x = [i] -> nth_error (me_lits m) i = Some (LM m') -> all_plain m'.
(** What two methods have in common at an instruction. *)
Definition alike (m m2 : meth) (x : ins) : Prop :=
  (forall i t1 t2, snd x = [i] -> In (snd (fst x)) selector_bc ->
     nth_error (me_lits m) i = Some (LS t1) -> nth_error (me_lits m2) i = Some (LS t2) -> t1 = t2) /\
  (forall i b1 b2, snd x = [i] -> snd (fst x) = B_push_block ->
     nth_error (me_lits m) i = Some (LM b1) -> nth_error (me_lits m2) i = Some (LM b2) -> same_code b1 b2).
Definition back_listed (m : meth) (ind t : text) : Prop := all_plain m ->
  forall m2 t2 r r2, listed ob m2 ind t2 -> all_plain m2 -> t ++ r = t2 ++ r2 -> same_code m m2 /\ r = r2.
Definition back_entry (m : meth) (ind : text) (x : ins) (t : text) : Prop := good_ins m x ->
  forall m2 x2 t2 r r2, entry ob m2 ind x2 t2 -> good_ins m2 x2 -> address x = address x2 -> t ++ r = t2 ++ r2 ->
  x = x2 /\ r = r2 /\ alike m m2 x.
Definition back_entries (m : meth) (ind : text) (code : list ins) (ts : text) : Prop := Forall (good_ins m) code ->
  forall a bs, decodes a bs code ->
  forall m2 code2 ts2 bs2 r r2, entries ob m2 ind code2 ts2 -> Forall (good_ins m2) code2 -> decodes a bs2 code2 ->
  ts ++ ind ++ ")"%char :: r = ts2 ++ ind ++ ")"%char :: r2 ->
  code = code2 /\ r = r2 /\ Forall (alike m m2) code.
Definition entry_head (ind : text) (x : ins) (u : text) : text :=
  ind ++ pad (address x) ++ nat_str (address x) ++ ":"%char :: chars (mnemonic (snd (fst x))) ++ " "%char :: u.
Lemma entry_begins m ind x t : entry ob m ind x t -> exists u, t = entry_head ind x u.
Proof.
  intros H. destruct H as [m ind a b ops ta to Hb Hc Ho|m ind a i m' ta ti t Hc Hi Hm Hl]; apply column_str in Hc; subst ta.
  - exists (" "%char :: to ++ [newline]). unfold entry_head, line, address. cbn [fst snd]. rewrite <- !app_assoc. cbn [app].
    rewrite <- ?app_assoc. reflexivity.
  - exists (chars " block: (index: " ++ ti ++ chars ") " ++ t). unfold entry_head, address. cbn [fst snd]. rewrite <- !app_assoc. reflexivity.
Qed.
Lemma same_name ind x x2 u u2 r r2 : address x = address x2 -> entry_head ind x u ++ r = entry_head ind x2 u2 ++ r2 ->
  snd (fst x) = snd (fst x2) /\ u ++ r = u2 ++ r2.
Proof.
  unfold entry_head. intros -> E. rewrite <- !app_assoc in E. cbn [app] in E. rewrite <- !app_assoc in E.
  do 3 apply app_inv_head in E. injection E as E. cbn [app] in E.
  destruct (cut (fun c => c = " "%char) (chars (mnemonic (snd (fst x)))) (chars (mnemonic (snd (fst x2)))) " " " " (u ++ r) (u2 ++ r2))%char as (E1 & _ & E2); auto using mnemonic_plain.
  split; auto. apply (f_equal find_name) in E1. rewrite !find_mnemonic in E1. congruence.
Qed.
Lemma pad_space n : exists u, pad n = " "%char :: u.
Proof. unfold pad. destruct (n <? 10), (n <? 100); cbn [str list_ascii_of_string app]; eauto. Qed.

Lemma decodes_bytes a bs code : decodes a bs code -> Forall (fun n => n < 256) bs ->
  forall x, In x code -> Forall (fun n => n < 256) (snd x).
Proof.
  induction 1 as [|a b ops bs code Hb Hl Hd IH]; intros B x Hx; [destruct Hx|].
  inversion B as [|? ? B1 B2]; subst. apply Forall_app in B2. destruct B2 as [B2 B3].
  destruct Hx as [Hx|Hx]; [subst x; exact B2|auto].
Qed.
Lemma back : (forall m ind t, listed ob m ind t -> back_listed m ind t) /\
  (forall m ind code ts, entries ob m ind code ts -> back_entries m ind code ts) /\
  (forall m ind x t, entry ob m ind x t -> back_entry m ind x t).
Proof.
  assert (GI : forall m code, all_plain m -> decodes 0 (me_bytes m) code -> Forall (good_ins m) code).
  { intros m code Hp Hd. pose proof (Hp m (shown_itself m)) as PM. destruct PM as (B & T & _ & _).
    specialize (T code Hd). apply Forall_forall. intros [[b c] ops] Hx. rewrite Forall_forall in T. specialize (T _ Hx).
    split; [apply Hp; constructor|]. split; [exact T|]. split.
    - change (Forall (fun n => n < 256) ops).
      exact (decodes_bytes _ _ _ Hd B _ Hx).
    - change (forall i m', c = B_push_block -> ops = [i] -> nth_error (me_lits m) i = Some (LM m') -> all_plain m').
      intros i m' -> -> Hm m'' Hs. apply Hp.
      assert (S1 : shown m m') by (eapply shown_block; eauto using shown_itself).
      clear - S1 Hs. induction Hs; auto. eapply shown_block; eauto. }
  apply listed_all.
  - (* a method *)
    intros m ind code ts tl tx tb Ht Hd He IHe Dl Dx Db Hp m2 t2 r r2 L2 Hp2 E.
    destruct L2 as [m2 ind code2 ts2 tl2 tx2 tb2 Ht2 Hd2 He2 Dl2 Dx2 Db2].
    rewrite <- !app_assoc in E. apply app_inv_head in E.
    assert (OL : forall tl tx tb n z k, decimal n tl -> written tx z -> decimal k tb ->
      one_line (chars "<" ++ tl ++ chars " locals, " ++ tx ++ chars " stack, " ++ tb ++ chars " bc_count>")).
    { intros. repeat (apply one_line_app; split); try (apply one_line_chars; reflexivity);
        try (eapply one_line_decimal; eassumption). eapply one_line_written; eassumption. }
    unfold line in E. rewrite <- !app_assoc in E. apply app_inv_head in E.
    assert (E' : line (chars "<" ++ tl ++ chars " locals, " ++ tx ++ chars " stack, " ++ tb ++ chars " bc_count>") ++ (ts ++ ind ++ ")"%char :: newline :: r) =
      line (chars "<" ++ tl2 ++ chars " locals, " ++ tx2 ++ chars " stack, " ++ tb2 ++ chars " bc_count>") ++ (ts2 ++ ind ++ ")"%char :: newline :: r2)).
    { unfold line. rewrite <- !app_assoc. exact E. }
    apply cut_line in E'; eauto. destruct E' as [_ E'].
    destruct (IHe (GI _ _ Hp Hd) _ _ Hd m2 code2 ts2 _ _ _ He2 (GI _ _ Hp2 Hd2) Hd2 E') as (-> & Er & HA).
    split; [|congruence].
    assert (EB : me_bytes m = me_bytes m2).
    { clear - Hd Hd2. revert Hd Hd2. generalize 0 (me_bytes m) (me_bytes m2). intros a b1 b2 H1. revert b2.
      induction H1 as [|a b ops bs code Hb Hl Hd IH]; intros b2 H2; inversion H2; subst; auto. f_equal. f_equal. auto. }
    rewrite Forall_forall in HA. constructor; auto.
    + intros c a b i t1 t2 Hc Hi Hb. pose proof (decodes_fun _ _ _ Hc _ Hd). subst c. apply (proj1 (HA _ Hi)); auto.
    + intros c a i b1 b2 Hc Hi. pose proof (decodes_fun _ _ _ Hc _ Hd). subst c. apply (proj2 (HA _ Hi)); auto.
  - (* no instructions *)
    intros m ind _ a bs Hd m2 code2 ts2 bs2 r r2 He2 Hg2 Hd2 E. cbn [app] in E. destruct He2 as [|m2 ind x c t ts Hx Hc].
    + cbn [app] in E. apply app_inv_head in E. injection E as E. auto.
    + exfalso. destruct (entry_begins _ _ _ _ Hx) as (u & ->). unfold entry_head in E. rewrite <- !app_assoc in E.
      apply app_inv_head in E. destruct (pad_space (address x)) as (v & Ev). rewrite Ev in E. discriminate.
  - (* more instructions *)
    intros m ind x code t ts Hx IHx Hc IHc Hg a bs Hd m2 code2 ts2 bs2 r r2 He2 Hg2 Hd2 E.
    inversion Hg as [|? ? Hgx Hgc]; subst. destruct He2 as [m2 ind|m2 ind x2 c2 t2 ts2 Hx2 Hc2].
    + exfalso. destruct (entry_begins _ _ _ _ Hx) as (u & ->). unfold entry_head in E. rewrite <- !app_assoc in E. cbn [app] in E.
      apply app_inv_head in E. destruct (pad_space (address x)) as (v & Ev). rewrite Ev in E. discriminate.
    + inversion Hg2 as [|? ? Hgx2 Hgc2]; subst.
      assert (Ax : address x = a) by (inversion Hd; reflexivity). assert (Ax2 : address x2 = a) by (inversion Hd2; reflexivity).
      rewrite <- !app_assoc in E.
      destruct (IHx Hgx m2 x2 t2 _ _ Hx2 Hgx2 ltac:(congruence) E) as (-> & E' & HA).
      destruct x2 as [[xa xb] xo]. clear Ax Ax2.
      assert (D1 : exists bs1, decodes (a + blen xb) bs1 code) by (inversion Hd; subst; eauto).
      assert (D2 : exists bs2, decodes (a + blen xb) bs2 c2) by (inversion Hd2; subst; eauto).
      destruct D1 as (bs1 & D1), D2 as (bs3 & D2).
      destruct (IHc Hgc _ _ D1 m2 c2 ts2 _ _ _ Hc2 Hgc2 D2 E') as (-> & -> & HF). auto.
  - (* an instruction *)
    intros m ind a b ops ta to Hb Hc Ho Hg m2 x2 t2 r r2 Hx2 Hg2 Ea E.
    assert (X1 : entry ob m ind (a, b, ops) (line (ind ++ ta ++ chars ":" ++ chars (mnemonic b) ++ chars "  " ++ to))) by (constructor; auto).
    apply column_str in Hc. subst ta.
    destruct Hx2 as [m2 ind a2 b2 ops2 ta2 to2 Hb2 Hc2 Ho2|m2 ind a2 i2 m2' ta2 ti2 t2 Hc2 Hi2 Hm2 Hl2];
      apply column_str in Hc2; subst ta2; cbn [address fst snd] in Ea; subst a2.
    + assert (E' : entry_head ind (a, b, ops) (" "%char :: to ++ [newline]) ++ r = entry_head ind (a, b2, ops2) (" "%char :: to2 ++ [newline]) ++ r2).
      { unfold entry_head, address. cbn [fst snd]. unfold line in E. rewrite <- !app_assoc in E. cbn [app chars list_ascii_of_string] in E.
        rewrite <- !app_assoc. cbn [app]. rewrite <- !app_assoc. cbn [app]. rewrite <- !app_assoc. cbn [app]. exact E. }
      apply same_name in E'; auto. destruct E' as [Eb Eu]. cbn [fst snd] in Eb. subst b2.
      destruct Hg as (P1 & T1 & B1 & _), Hg2 as (P2 & _ & B2 & _). cbn [fst snd] in *.
      injection Eu as Eu. apply (cut_line to to2) in Eu; eauto using operands_line. destruct Eu as [<- ->].
      destruct (operands_back _ _ _ _ _ _ _ T1 Hb B1 B2 Ho Ho2) as [-> HS].
      split; auto. split; auto. split; cbn [fst snd]; auto. congruence.
    + exfalso. assert (E' : entry_head ind (a, b, ops) (" "%char :: to ++ [newline]) ++ r =
        entry_head ind (a, B_push_block, [i2]) (chars " block: (index: " ++ ti2 ++ chars ") " ++ t2) ++ r2).
      { unfold entry_head, address. cbn [fst snd]. unfold line in E. rewrite <- !app_assoc in E. cbn [app chars list_ascii_of_string mnemonic] in *.
        rewrite <- !app_assoc in *. cbn [app] in *. rewrite <- !app_assoc in *. cbn [app] in *. rewrite <- !app_assoc in *. cbn [app] in *. exact E. }
      apply same_name in E'; auto. destruct E' as [Eb _]. cbn [fst snd] in Eb. congruence.
  - (* a block *)
    intros m ind a i m' ta ti t Hc Hi Hm Hl IH Hg m2 x2 t2 r r2 Hx2 Hg2 Ea E. apply column_str in Hc. subst ta.
    destruct Hx2 as [m2 ind a2 b2 ops2 ta2 to2 Hb2 Hc2 Ho2|m2 ind a2 i2 m2' ta2 ti2 t2 Hc2 Hi2 Hm2 Hl2];
      apply column_str in Hc2; subst ta2; cbn [address fst snd] in Ea; subst a2.
    + exfalso. assert (E' : entry_head ind (a, B_push_block, [i]) (chars " block: (index: " ++ ti ++ chars ") " ++ t) ++ r =
        entry_head ind (a, b2, ops2) (" "%char :: to2 ++ [newline]) ++ r2).
      { unfold entry_head, address. cbn [fst snd]. unfold line in E. rewrite <- !app_assoc in E. cbn [app chars list_ascii_of_string mnemonic] in *.
        rewrite <- !app_assoc in *. cbn [app] in *. rewrite <- !app_assoc in *. cbn [app] in *. rewrite <- !app_assoc in *. cbn [app] in *. exact E. }
      apply same_name in E'; auto. destruct E' as [Eb _]. cbn [fst snd] in Eb. congruence.
    + rewrite <- !app_assoc in E. do 5 apply app_inv_head in E.
      destruct (cut_pair "  block: (index: " i i2 ti ti2 ") " (t ++ r) (t2 ++ r2) Hi Hi2 eq_refl ltac:(discriminate) E) as [-> E'']. clear E. rename E'' into E.
      destruct Hg as (_ & _ & _ & P1), Hg2 as (_ & _ & _ & P2). cbn [fst snd] in *.
      destruct (IH (P1 _ _ eq_refl eq_refl Hm) m2' t2 r r2 Hl2 (P2 _ _ eq_refl eq_refl Hm2) E) as [SC ->].
      split; auto. split; auto. split; cbn [fst snd].
      * intros ? ? ? _ Hin. exfalso. unfold selector_bc in Hin. cbn [In] in Hin. intuition discriminate.
      * intros j b1 b2 Ej _ E1 E2. injection Ej as <-. congruence.
Qed.
End Back.
