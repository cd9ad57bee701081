From Coq Require Import NArith ZArith Bool List Lia.
From Verif Require Import Base IoModel IoSpec.
Import ListNotations.
Open Scope N_scope.
Open Scope list_scope.
Ltac Zify.zify_post_hook ::= Z.to_euclidean_division_equations.

(** * UTF-8 *)
Lemma encode_char_iff c bs : is_char c -> encode_char c = Ok bs <-> utf8_char c bs.
Proof.
  unfold is_char, encode_char, surrogate. intros Hc. split.
  - destruct (N.ltb_spec c 128); [intros E; injection E as <-; constructor; auto|].
    destruct (N.ltb_spec c 2048).
    { intros E. injection E as <-. replace c with (c / 64 * 64 + c mod 64) at 1 by lia. constructor; lia. }
    destruct (N.leb_spec 55296 c), (N.ltb_spec c 57344); cbn [andb]; try discriminate; destruct (N.ltb_spec c 65536);
      intros E; injection E as <-; try lia;
      first [replace c with (c / 4096 * 4096 + c / 64 mod 64 * 64 + c mod 64) at 1 by lia; constructor; lia
            |replace c with (c / 262144 * 262144 + c / 4096 mod 64 * 4096 + c / 64 mod 64 * 64 + c mod 64) at 1 by lia; constructor; lia].
  - intros H. destruct H as [a H|a b H1 H2 H3|a b d H1 H2 H3 H4 H5|a b d e H1 H2 H3 H4 H5].
    + destruct (N.ltb_spec a 128); [reflexivity|lia].
    + set (c := a * 64 + b) in *. destruct (N.ltb_spec c 128); [lia|]. destruct (N.ltb_spec c 2048); [|lia].
      replace (c / 64) with a by lia. replace (c mod 64) with b by lia. reflexivity.
    + set (c := a * 4096 + b * 64 + d) in *. destruct (N.ltb_spec c 128); [lia|]. destruct (N.ltb_spec c 2048); [lia|].
      assert (E : (55296 <=? c) && (c <? 57344) = false).
      { destruct (N.leb_spec 55296 c), (N.ltb_spec c 57344); try reflexivity. lia. }
      rewrite E. destruct (N.ltb_spec c 65536); [|lia].
      replace (c / 4096) with a by lia. replace (c / 64 mod 64) with b by lia. replace (c mod 64) with d by lia. reflexivity.
    + set (c := a * 262144 + b * 4096 + d * 64 + e) in *. destruct (N.ltb_spec c 128); [lia|]. destruct (N.ltb_spec c 2048); [lia|].
      assert (E : (55296 <=? c) && (c <? 57344) = false).
      { destruct (N.leb_spec 55296 c), (N.ltb_spec c 57344); try reflexivity. lia. }
      rewrite E. destruct (N.ltb_spec c 65536); [lia|].
      replace (c / 262144) with a by lia. replace (c / 4096 mod 64) with b by lia. replace (c / 64 mod 64) with d by lia.
      replace (c mod 64) with e by lia. reflexivity.
Qed.
Lemma utf8_char_scalar c bs : utf8_char c bs -> scalar c.
Proof. unfold scalar, is_char. destruct 1; lia. Qed.
Lemma encode_iff t : Forall is_char t -> forall bs, encode_to_bytes t = Ok bs <-> utf8 t bs.
Proof.
  induction 1 as [|c t Hc Ht IH]; intros bs; cbn [encode_to_bytes].
  - split; [intros E; injection E as <-; constructor|]. intros H. inversion H. reflexivity.
  - unfold Base.bind. split.
    + destruct (encode_char c) as [b|] eqn:E; [|discriminate]. destruct (encode_to_bytes t) as [r|] eqn:Er; [|discriminate].
      intros E2. injection E2 as <-. constructor; [apply encode_char_iff; auto|apply IH; reflexivity].
    + intros H. inversion H; subst. rewrite (proj2 (encode_char_iff _ _ Hc)) by eassumption.
      rewrite (proj2 (IH _)) by eassumption. reflexivity.
Qed.
Lemma encode_scalar t : Forall scalar t -> exists bs, encode_to_bytes t = Ok bs.
Proof.
  induction 1 as [|c t [Hc Hs] Ht (r & IH)]; [eexists; reflexivity|]. cbn [encode_to_bytes]. unfold Base.bind. rewrite IH.
  unfold encode_char, surrogate. destruct (c <? 128); [eexists; reflexivity|]. destruct (c <? 2048); [eexists; reflexivity|].
  destruct (N.leb_spec 55296 c), (N.ltb_spec c 57344); cbn [andb]; try (destruct (c <? 65536); eexists; reflexivity). lia.
Qed.
Lemma utf8_scalar t bs : utf8 t bs -> Forall scalar t.
Proof. induction 1; constructor; auto. eapply utf8_char_scalar; eauto. Qed.

Lemma cont_spec b : cont b = true <-> 128 <= b < 192.
Proof. unfold cont. rewrite andb_true_iff, N.leb_le, N.ltb_lt. tauto. Qed.
Lemma decode_char_ok c bs r : utf8_char c bs -> decode_char (bs ++ r) = Ok (c, r).
Proof.
  assert (CN : forall b, b < 64 -> cont (128 + b) = true) by (intros; apply cont_spec; lia).
  destruct 1 as [a H|a b H1 H2 H3|a b d H1 H2 H3 H4 H5|a b d e H1 H2 H3 H4 H5]; cbn [app]; unfold decode_char.
  - destruct (N.ltb_spec a 128); [reflexivity|lia].
  - destruct (N.ltb_spec (192 + a) 128); [lia|].
    assert (E : (194 <=? 192 + a) && (192 + a <? 224) = true) by (apply andb_true_iff; rewrite N.leb_le, N.ltb_lt; lia).
    rewrite E, CN by auto. do 2 f_equal. lia.
  - destruct (N.ltb_spec (224 + a) 128); [lia|].
    assert (E : (194 <=? 224 + a) && (224 + a <? 224) = false) by (apply andb_false_iff; rewrite N.leb_gt, N.ltb_ge; lia).
    assert (E' : (224 <=? 224 + a) && (224 + a <? 240) = true) by (apply andb_true_iff; rewrite N.leb_le, N.ltb_lt; lia).
    rewrite E, E', !CN by auto. cbn [andb].
    assert (G1 : (if 224 + a =? 224 then 160 <=? 128 + b else true) = true).
    { destruct (N.eqb_spec (224 + a) 224); auto. apply N.leb_le. lia. }
    assert (G2 : (if 224 + a =? 237 then 128 + b <? 160 else true) = true).
    { destruct (N.eqb_spec (224 + a) 237); auto. apply N.ltb_lt. lia. }
    rewrite G1, G2. cbn [andb]. do 2 f_equal. lia.
  - destruct (N.ltb_spec (240 + a) 128); [lia|].
    assert (E : (194 <=? 240 + a) && (240 + a <? 224) = false) by (apply andb_false_iff; rewrite N.leb_gt, N.ltb_ge; lia).
    assert (E' : (224 <=? 240 + a) && (240 + a <? 240) = false) by (apply andb_false_iff; rewrite N.leb_gt, N.ltb_ge; lia).
    assert (E2 : (240 <=? 240 + a) && (240 + a <? 245) = true) by (apply andb_true_iff; rewrite N.leb_le, N.ltb_lt; lia).
    rewrite E, E', E2, !CN by auto. cbn [andb].
    assert (G1 : (if 240 + a =? 240 then 144 <=? 128 + b else true) = true).
    { destruct (N.eqb_spec (240 + a) 240); auto. apply N.leb_le. lia. }
    assert (G2 : (if 240 + a =? 244 then 128 + b <? 144 else true) = true).
    { destruct (N.eqb_spec (240 + a) 244); auto. apply N.ltb_lt. lia. }
    rewrite G1, G2. cbn [andb]. do 2 f_equal. lia.
Qed.
Lemma decode_char_inv bs c r : decode_char bs = Ok (c, r) -> exists b, utf8_char c b /\ bs = b ++ r.
Proof.
  unfold decode_char. destruct bs as [|a bs]; [discriminate|].
  destruct (N.ltb_spec a 128); [intros E; injection E as <- <-; exists [a]; split; [constructor; auto|reflexivity]|].
  destruct ((194 <=? a) && (a <? 224)) eqn:E1.
  { apply andb_true_iff in E1. rewrite N.leb_le, N.ltb_lt in E1. destruct bs as [|b bs]; [discriminate|].
    destruct (cont b) eqn:Cb; [|discriminate]. apply cont_spec in Cb. intros E; injection E as <- <-.
    exists [a; b]. split; [|reflexivity]. replace a with (192 + (a - 192)) at 2 by lia. replace b with (128 + (b - 128)) at 2 by lia.
    constructor; lia. }
  destruct ((224 <=? a) && (a <? 240)) eqn:E2.
  { apply andb_true_iff in E2. rewrite N.leb_le, N.ltb_lt in E2. destruct bs as [|b [|d bs]]; try discriminate.
    destruct (cont b) eqn:Cb; [|discriminate]. destruct (cont d) eqn:Cd; [|discriminate]. cbn [andb].
    apply cont_spec in Cb. apply cont_spec in Cd.
    destruct (if a =? 224 then 160 <=? b else true) eqn:G1; [|discriminate].
    destruct (if a =? 237 then b <? 160 else true) eqn:G2; [|discriminate]. cbn [andb].
    intros E; injection E as <- <-. exists [a; b; d]. split; [|reflexivity].
    assert (a = 224 -> 160 <= b) by (intros ->; apply N.leb_le; exact G1).
    assert (a = 237 -> b < 160) by (intros ->; apply N.ltb_lt; exact G2).
    replace [a; b; d] with [224 + (a - 224); 128 + (b - 128); 128 + (d - 128)] by (do 3 f_equal; lia).
    constructor; lia. }
  destruct ((240 <=? a) && (a <? 245)) eqn:E3; [|discriminate].
  apply andb_true_iff in E3. rewrite N.leb_le, N.ltb_lt in E3. destruct bs as [|b [|d [|e bs]]]; try discriminate.
  destruct (cont b) eqn:Cb; [|discriminate]. destruct (cont d) eqn:Cd; [|discriminate]. destruct (cont e) eqn:Ce; [|discriminate]. cbn [andb].
  apply cont_spec in Cb. apply cont_spec in Cd. apply cont_spec in Ce.
  destruct (if a =? 240 then 144 <=? b else true) eqn:G1; [|discriminate].
  destruct (if a =? 244 then b <? 144 else true) eqn:G2; [|discriminate]. cbn [andb].
  intros E; injection E as <- <-. exists [a; b; d; e]. split; [|reflexivity].
  assert (a = 240 -> 144 <= b) by (intros ->; apply N.leb_le; exact G1).
  assert (a = 244 -> b < 144) by (intros ->; apply N.ltb_lt; exact G2).
  replace [a; b; d; e] with [240 + (a - 240); 128 + (b - 128); 128 + (d - 128); 128 + (e - 128)] by (do 4 f_equal; lia).
  constructor; lia.
Qed.
Lemma utf8_char_length c bs : utf8_char c bs -> (1 <= length bs)%nat.
Proof. destruct 1; cbn [length]; lia. Qed.
Lemma decode_bytes_iff t bs : forall fuel, (length bs <= fuel)%nat -> decode_bytes fuel bs = Ok t <-> utf8 t bs.
Proof.
  intros fuel Hf. split.
  - clear Hf. revert t bs. induction fuel as [|fuel IH]; intros t [|b bs] E; cbn [decode_bytes] in E; try discriminate;
      try (injection E as <-; constructor).
    destruct (decode_char (b :: bs)) as [[c r]|] eqn:Ec; cbn [Base.bind fst snd] in E; [|discriminate].
    destruct (decode_bytes fuel r) as [u|] eqn:Eu; cbn [Base.bind] in E; [|discriminate]. injection E as <-.
    apply decode_char_inv in Ec. destruct Ec as (p & Hp & ->). constructor; auto.
  - intros H. revert fuel Hf. induction H as [|c b t r Hc Ht IH]; intros fuel Hf; [destruct fuel; reflexivity|].
    pose proof (utf8_char_length _ _ Hc) as Lb. rewrite app_length in Hf. destruct fuel as [|fuel]; [lia|].
    pose proof (decode_char_ok _ _ r Hc) as D. cbn [decode_bytes]. destruct (b ++ r) as [|x y] eqn:E; [destruct b; [cbn in Lb; lia|discriminate]|].
    rewrite D. cbn [Base.bind fst snd]. rewrite IH by lia. reflexivity.
Qed.
Lemma decode_iff t bs : decode_str bs = Ok t <-> utf8 t bs.
Proof. apply decode_bytes_iff. lia. Qed.
Lemma utf8_app t bs : utf8 t bs -> forall t' bs', utf8 t' bs' -> utf8 (t ++ t') (bs ++ bs').
Proof. induction 1; intros t' bs' H'; cbn [app]; [exact H'|]. rewrite <- app_assoc. constructor; auto. Qed.
Lemma utf8_fun t bs bs' : utf8 t bs -> utf8 t bs' -> bs = bs'.
Proof.
  intros H H'. assert (F : Forall is_char t) by (eapply Forall_impl; [|apply (utf8_scalar _ _ H)]; intros c []; auto).
  apply (encode_iff t F) in H. apply (encode_iff t F) in H'. congruence.
Qed.
Lemma utf8_inj t t' bs : utf8 t bs -> utf8 t' bs -> t = t'.
Proof. intros H H'. apply decode_iff in H. apply decode_iff in H'. congruence. Qed.
Lemma utf8_split t : forall t' bs, utf8 (t ++ t') bs -> exists b b', utf8 t b /\ utf8 t' b' /\ bs = b ++ b'.
Proof.
  induction t as [|c t IH]; intros t' bs H; cbn [app] in H.
  - exists [], bs. repeat split; auto. constructor.
  - inversion H as [|c0 p t0 r Hc Ht]; subst. destruct (IH _ _ Ht) as (b & b' & H1 & H2 & ->).
    exists (p ++ b), b'. split; [constructor; auto|]. split; auto. rewrite app_assoc. reflexivity.
Qed.
Lemma utf8_chars t bs : utf8 t bs -> Forall is_char t.
Proof. intros H. eapply Forall_impl; [|apply (utf8_scalar _ _ H)]. intros c []; auto. Qed.

(** * Output *)
Lemma write_text_all one t bs n o : utf8 t bs -> (length bs <= n)%nat ->
  write_text one t (Takes n) o =
  (Ok tt, if one then Outs (fd1 o ++ bs) (fd2 o) (buffered o) else Outs (fd1 o) (fd2 o ++ bs) (buffered o)).
Proof.
  intros H L. unfold write_text. rewrite (proj2 (encode_iff t (utf8_chars _ _ H) bs) H). cbn [os_write].
  rewrite firstn_all2 by exact L. reflexivity.
Qed.
Lemma breakpoint_utf8 : utf8 breakpoint_text breakpoint.
Proof. apply decode_iff. vm_compute. reflexivity. Qed.
Lemma do_act_all tty x sys o b1 b2 : has_string x -> takes_all (x, sys) -> (tty = true \/ no_halt x) -> buffered o = [] ->
  utf8 (shows true x) b1 -> utf8 (shows false x) b2 ->
  do_act tty x sys o = (Ok tt, Outs (fd1 o ++ b1) (fd2 o ++ b2) []).
Proof.
  intros Hs Ht Hh Hb H1 H2. destruct sys as [n|]; [|destruct Ht]. cbn [takes_all snd fst] in Ht.
  assert (N0 : forall b, utf8 [] b -> b = []) by (intros b H; inversion H; reflexivity).
  destruct o as [o1 o2 ob]. cbn [buffered fd1 fd2] in *. subst ob.
  destruct x as [[t|]| |[t|]|[t|]|]; cbn [has_string] in Hs; try congruence; cbn [shows] in *; unfold do_act, with_text;
    cbn [get_embedded_string].
  - rewrite (write_text_all true t b1 n) by (auto; apply (Ht true); auto). rewrite (N0 _ H2), app_nil_r. reflexivity.
  - rewrite (write_text_all true new_line b1 n) by (auto; apply (Ht true); auto). rewrite (N0 _ H2), app_nil_r. reflexivity.
  - rewrite (write_text_all false t b2 n) by (auto; apply (Ht false); auto). rewrite (N0 _ H1), app_nil_r. reflexivity.
  - rewrite (write_text_all false (t ++ new_line) b2 n) by (auto; apply (Ht false); auto). rewrite (N0 _ H1), app_nil_r. reflexivity.
  - destruct Hh as [->|Hh]; [|exfalso; apply Hh; reflexivity].
    rewrite (utf8_fun _ _ _ H1 breakpoint_utf8), (N0 _ H2), app_nil_r. reflexivity.
Qed.
Lemma do_acts_all tty xs : Forall (fun p => has_string (fst p)) xs -> Forall takes_all xs ->
  (tty = true \/ Forall (fun p => no_halt (fst p)) xs) ->
  forall o b1 b2, buffered o = [] -> utf8 (shown_text true (map fst xs)) b1 -> utf8 (shown_text false (map fst xs)) b2 ->
  do_acts tty xs o = (Ok tt, Outs (fd1 o ++ b1) (fd2 o ++ b2) []).
Proof.
  induction xs as [|[x sys] xs IH]; intros Hs Ht Hh o b1 b2 Hb H1 H2.
  - inversion H1; inversion H2; subst. cbn [do_acts]. rewrite !app_nil_r, <- Hb. destruct o; reflexivity.
  - inversion Hs as [|? ? Hs1 Hs2]; inversion Ht as [|? ? Ht1 Ht2]; subst. cbn [map fst] in *.
    unfold shown_text in H1, H2. cbn [map concat] in H1, H2.
    apply utf8_split in H1. apply utf8_split in H2. destruct H1 as (p1 & q1 & P1 & Q1 & ->), H2 as (p2 & q2 & P2 & Q2 & ->).
    assert (Hx : tty = true \/ no_halt x) by (destruct Hh as [|Hh]; [left; auto|right; inversion Hh; auto]).
    assert (Hxs : tty = true \/ Forall (fun p => no_halt (fst p)) xs) by (destruct Hh as [|Hh]; [left; auto|right; inversion Hh; auto]).
    cbn [do_acts]. rewrite (do_act_all tty x sys o p1 p2 Hs1 Ht1 Hx Hb P1 P2).
    rewrite (IH Hs2 Ht2 Hxs _ q1 q2) by auto. cbn [fd1 fd2]. rewrite !app_assoc. reflexivity.
Qed.

(** * Files *)
Lemma newlines_iff t : forall u, lines_as t u <-> universal_newlines t = u.
Proof.
  assert (F : forall t, lines_as t (universal_newlines t)).
  { intros t0. remember (length t0) as n eqn:En. assert (Hn : (length t0 <= n)%nat) by lia. clear En. revert t0 Hn.
    induction n as [|n IH]; intros [|c r] Hn; cbn [length universal_newlines] in *; try lia; try constructor.
    destruct (N.eqb_spec c 13) as [->|Hc].
    - destruct r as [|d r]; [apply lines_cr; [constructor|discriminate]|]. destruct (N.eqb_spec d 10) as [->|Hd].
      + constructor. apply IH. cbn [length] in Hn. lia.
      + apply lines_cr; [apply IH; lia|]. intros r' E. congruence.
    - constructor; auto. apply IH. lia. }
  intros u. split; [|intros <-; apply F].
  induction 1 as [|t u H IH|t u H IH Hn|c t u Hc H IH]; cbn [universal_newlines].
  - reflexivity.
  - cbn. rewrite IH. reflexivity.
  - change (13 =? 13) with true. cbv iota. destruct t as [|d t]; [cbn in IH; subst; reflexivity|].
    destruct (N.eqb_spec d 10) as [->|]; [exfalso; eapply Hn; reflexivity|]. rewrite IH. reflexivity.
  - destruct (N.eqb_spec c 13); [congruence|]. rewrite IH. reflexivity.
Qed.
Definition total (es : list event) : nat :=
  fold_right (fun e n => match e with Text t => S (length t) + n | _ => 1 + n end)%nat 0%nat es.
Lemma read_some size es data es' : 0 < size -> read size es = (Ok data, es') -> data <> [] ->
  (total es' < total es)%nat /\ before_failure es = data ++ before_failure es'.
Proof.
  intros Hs E Hd. destruct es as [|[t| |] es]; cbn [read] in E; try discriminate; [injection E as <- _; congruence|].
  destruct (N.leb_spec (N.of_nat (length t)) size).
  - injection E as <- <-. split; [|reflexivity]. unfold total. cbn [fold_right]. lia.
  - injection E as <- <-. cbn [total fold_right before_failure]. rewrite app_assoc, firstn_skipn. split; [|reflexivity].
    cbn [total fold_right]. rewrite skipn_length. unfold total. lia.
Qed.
Lemma next_size size : 0 < size -> 0 < (if size <? 4194304 then N.shiftl size 1 else size).
Proof. intros H. destruct (size <? 4194304); [|exact H]. rewrite N.shiftl_mul_pow2. change (2 ^ 1) with 2. lia. Qed.
(** What readall comes to *)
Lemma readall_ends es : forall fuel size result, (total es < fuel)%nat -> 0 < size ->
  readall fuel size result es <> Err OutOfFuel.
Proof.
  intros fuel. revert es. induction fuel as [|fuel IH]; intros es size result Hf Hs; [lia|]. cbn [readall].
  destruct (read size es) as [[data|e] es'] eqn:E.
  - destruct data as [|c data]; [discriminate|].
    destruct (read_some size es (c :: data) es' Hs E ltac:(discriminate)) as [T _].
    apply IH; [lia|apply next_size; exact Hs].
  - assert (e = PyException \/ e = ValueError) as [->| ->].
    { destruct es as [|[t| |] es]; cbn [read] in E; try discriminate; [destruct (_ <=? _) in E; discriminate| |]; injection E as <- _; auto. }
    + destruct result; discriminate.
    + discriminate.
Qed.
Lemma readall_prefix : forall fuel es size result t, 0 < size -> readall fuel size result es = Ok t ->
  exists rest, concat result ++ before_failure es = t ++ rest.
Proof.
  induction fuel as [|fuel IH]; intros es size result t Hs H; [discriminate|]. cbn [readall] in H.
  destruct (read size es) as [[data|e] es'] eqn:E.
  - destruct data as [|c data]; [injection H as <-; eauto|].
    destruct (read_some size es (c :: data) es' Hs E ltac:(discriminate)) as [_ B].
    destruct (IH _ _ _ _ (next_size _ Hs) H) as (rest & R). exists rest. rewrite <- R, B, concat_app. cbn [concat].
    rewrite app_nil_r, app_assoc. reflexivity.
  - destruct e; try discriminate. destruct result; [discriminate|]. injection H as <-. eauto.
Qed.
Lemma readall_delivered : forall fuel ps size result, (total (map Text ps) < fuel)%nat -> 0 < size -> Forall (fun p => p <> []) ps ->
  readall fuel size result (map Text ps) = Ok (concat result ++ concat ps).
Proof.
  induction fuel as [|fuel IH]; intros ps size result Hf Hs F; [lia|]. cbn [readall].
  destruct ps as [|p ps]; [cbn; rewrite app_nil_r; reflexivity|]. inversion F as [|? ? Fp Fps]; subst. cbn [map read] in *.
  destruct (N.leb_spec (N.of_nat (length p)) size) as [L|L].
  - destruct p as [|c p]; [congruence|]. cbn [total map fold_right] in Hf. rewrite IH; auto; [|unfold total; lia|apply next_size; exact Hs].
    rewrite concat_app. cbn [concat]. rewrite app_nil_r, <- app_assoc. reflexivity.
  - destruct (firstn (N.to_nat size) p) as [|c q] eqn:Eq.
    { exfalso. apply (f_equal (@length _)) in Eq. rewrite firstn_length in Eq. cbn [length] in Eq. lia. }
    change (Text (skipn (N.to_nat size) p) :: map Text ps) with (map Text (skipn (N.to_nat size) p :: ps)).
    rewrite IH.
    + rewrite concat_app. cbn [concat]. rewrite app_nil_r, <- Eq, <- !app_assoc. do 2 f_equal. rewrite app_assoc, firstn_skipn. reflexivity.
    + cbn [total map fold_right] in *. rewrite skipn_length. unfold total in *. lia.
    + apply next_size. exact Hs.
    + constructor; auto. intros E. apply (f_equal (@length _)) in E. rewrite skipn_length in E. cbn [length] in E. lia.
Qed.

(** * Lines of the shell *)
Lemma raw_input_pieces pieces : Forall (fun p => snd p <> [] /\ last (snd p) 0 <> 10 /\ utf8 (fst p) (snd p)) pieces ->
  forall answer chunks, raw_input_str answer (map snd pieces ++ chunks) = raw_input_str (answer ++ concat (map fst pieces)) chunks.
Proof.
  induction 1 as [|[t bs] pieces (H1 & H2 & H3) _ IH]; intros answer chunks; cbn [map app concat fst snd] in *.
  - rewrite app_nil_r. reflexivity.
  - cbn [raw_input_str]. destruct bs as [|b bs]; [congruence|]. destruct (N.eqb_spec (last (b :: bs) 0) 10); [congruence|].
    rewrite (proj2 (decode_iff _ _) H3). rewrite IH, app_assoc. reflexivity.
Qed.
