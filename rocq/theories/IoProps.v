(** C70: text that enters and leaves the VM. *)
From Coq Require Import NArith ZArith Bool List Lia.
From Verif Require Import Base IoModel IoSpec IoProofs.
Import ListNotations.
Open Scope N_scope.
Open Scope list_scope.

(** A text is written as its UTF-8 bytes and can be written exactly when it has such bytes,
    which is when it has no surrogates. *)
Theorem C70_encode : forall t, Forall is_char t ->
  (forall bs, encode_to_bytes t = Ok bs <-> utf8 t bs) /\
  ((exists bs, encode_to_bytes t = Ok bs) <-> Forall scalar t).
Proof.
  intros t F. split; [apply encode_iff; exact F|]. split; [|apply encode_scalar].
  intros (bs & H). apply (encode_iff t F) in H. eapply utf8_scalar; eauto.
Qed.
Print Assumptions C70_encode.
Example C70_nonvacuous_encode : utf8 [72; 228; 8364; 128512] [72; 195; 164; 226; 130; 172; 240; 159; 152; 128].
Proof. apply decode_iff. vm_compute. reflexivity. Qed.

(** Bytes are read as a text exactly when they are its UTF-8 bytes; so no two texts are
    written the same, and what is read and written again is the same bytes. *)
Theorem C70_decode : forall t bs, decode_str bs = Ok t <-> utf8 t bs.
Proof. apply decode_iff. Qed.
Print Assumptions C70_decode.
Theorem C70_round_trip : forall t bs, decode_str bs = Ok t <-> encode_to_bytes t = Ok bs /\ Forall is_char t.
Proof.
  intros t bs. rewrite decode_iff. split.
  - intros H. split; [apply encode_iff; auto|]; eapply utf8_chars; eauto.
  - intros [H F]. apply encode_iff; auto.
Qed.
Print Assumptions C70_round_trip.

(** Whatever is printed, in whatever order, to the standard output and the standard error:
    each of them gets its texts, complete, in order, and nothing else - if the system takes
    all the bytes it is given, and no breakpoint is shown while the output is no terminal. *)
Theorem C70_output_partial : forall tty xs o b1 b2,
  Forall (fun p => has_string (fst p)) xs -> Forall takes_all xs ->
  (tty = true \/ Forall (fun p => no_halt (fst p)) xs) -> buffered o = [] ->
  utf8 (shown_text true (map fst xs)) b1 -> utf8 (shown_text false (map fst xs)) b2 ->
  do_acts tty xs o = (Ok tt, Outs (fd1 o ++ b1) (fd2 o ++ b2) []).
Proof. intros. apply do_acts_all; auto. Qed.
Print Assumptions C70_output_partial.
Definition ex_acts : list (act * system_) :=
  [(PrintString (AStr [72; 228]), Takes 100); (ErrorPrintln (AStr [8364]), Takes 4); (PrintNewline, Takes 1);
   (Halt, Takes 100); (PrintString (AStr [128512]), Takes 4)].
Example C70_nonvacuous_output : Forall (fun p => has_string (fst p)) ex_acts /\ Forall takes_all ex_acts /\
  utf8 (shown_text true (map fst ex_acts)) ([72; 195; 164; 10] ++ breakpoint ++ [240; 159; 152; 128]) /\
  utf8 (shown_text false (map fst ex_acts)) [226; 130; 172; 10].
Proof.
  split; [repeat (apply Forall_cons; [cbn; try discriminate; exact I|]); apply Forall_nil|].
  split; [|split; apply decode_iff; vm_compute; reflexivity].
  assert (T : forall x n b1 b2, utf8 (shows true x) b1 -> utf8 (shows false x) b2 -> (length b1 <= n)%nat -> (length b2 <= n)%nat -> takes_all (x, Takes n)).
  { intros x n b1 b2 H1 H2 L1 L2 [] bs H; cbn [fst snd] in H; [rewrite (utf8_fun _ _ _ H H1)|rewrite (utf8_fun _ _ _ H H2)]; assumption. }
  repeat apply Forall_cons; try apply Forall_nil.
  - eapply T; [apply (proj1 (decode_iff [72; 228] [72; 195; 164])); reflexivity|constructor|cbn; lia|cbn; lia].
  - eapply T; [constructor|apply (proj1 (decode_iff [8364; 10] [226; 130; 172; 10])); reflexivity|cbn; lia|cbn; lia].
  - eapply T; [apply (proj1 (decode_iff [10] [10])); reflexivity|constructor|cbn; lia|cbn; lia].
  - eapply T; [apply breakpoint_utf8|constructor|cbn; lia|cbn; lia].
  - eapply T; [apply (proj1 (decode_iff [128512] [240; 159; 152; 128])); reflexivity|constructor|cbn; lia|cbn; lia].
Qed.

(** When the system takes fewer bytes than it is given, the rest is lost, and the program is
    not told. *)
Theorem C70_short_write_refuted : ~ (forall tty t bs n o, utf8 t bs ->
  fst (do_act tty (PrintString (AStr t)) (Takes n) o) = Ok tt ->
  fd1 (snd (do_act tty (PrintString (AStr t)) (Takes n) o)) = fd1 o ++ bs).
Proof.
  intros H. specialize (H true [65; 66] [65; 66] 1%nat (Outs [] [] [])).
  assert (U : utf8 [65; 66] [65; 66]) by (apply decode_iff; reflexivity). specialize (H U eq_refl). discriminate H.
Qed.
Print Assumptions C70_short_write_refuted.
(** The breakpoint message comes after what is printed later, if the output is no terminal. *)
Theorem C70_breakpoint_refuted : ~ (forall xs o b1, Forall (fun p => has_string (fst p)) xs -> Forall takes_all xs -> buffered o = [] ->
  utf8 (shown_text true (map fst xs)) b1 -> fd1 (at_exit (snd (do_acts false xs o))) = fd1 o ++ b1).
Proof.
  intros H. specialize (H [(Halt, Takes 20); (PrintNewline, Takes 20)] (Outs [] [] []) (breakpoint ++ [10])).
  assert (U : utf8 (shown_text true [Halt; PrintNewline]) (breakpoint ++ [10])) by (apply decode_iff; vm_compute; reflexivity).
  cbn [map fst] in H. assert (F1 : Forall (fun p : act * system_ => has_string (fst p)) [(Halt, Takes 20); (PrintNewline, Takes 20)]) by (repeat constructor).
  assert (F2 : Forall takes_all [(Halt, Takes 20); (PrintNewline, Takes 20)]).
  { repeat apply Forall_cons; try apply Forall_nil; intros [] bs Hu; cbn [fst snd shows] in Hu.
    - rewrite (utf8_fun _ _ _ Hu breakpoint_utf8). cbn. lia.
    - inversion Hu. cbn. lia.
    - assert (E : utf8 [10] [10]) by (apply decode_iff; reflexivity). rewrite (utf8_fun _ _ _ Hu E). cbn. lia.
    - inversion Hu. cbn. lia. }
  specialize (H F1 F2 eq_refl U). vm_compute in H. discriminate.
Qed.
Print Assumptions C70_breakpoint_refuted.
(** A command-line argument is a string of the program, but one that is not UTF-8 cannot be
    printed: the VM ends with UnicodeEncodeError. *)
Theorem C70_argument_refuted : ~ (forall tty bs n o, Forall (fun b => b < 256) bs ->
  fst (do_act tty (PrintString (AStr (argument bs))) (Takes n) o) = Ok tt).
Proof.
  intros H. specialize (H true [97; 255] 10%nat (Outs [] [] [])).
  assert (F : Forall (fun b => b < 256) [97; 255]) by (repeat constructor). specialize (H F). discriminate H.
Qed.
Print Assumptions C70_argument_refuted.
(** One that is UTF-8 is the text, and printing it writes the same bytes. *)
Theorem C70_argument_partial : forall tty t bs n o, utf8 t bs -> (length bs <= n)%nat ->
  argument bs = t /\
  do_act tty (PrintString (AStr (argument bs))) (Takes n) o = (Ok tt, Outs (fd1 o ++ bs) (fd2 o) (buffered o)).
Proof.
  intros tty t bs n o H L.
  assert (E : argument bs = t).
  { unfold argument. assert (G : forall fuel, (length bs <= fuel)%nat -> fs_decode fuel bs = t); [|apply G; lia].
    clear L. induction H as [|c b t r Hc Ht IH]; intros fuel Hf; [destruct fuel; reflexivity|].
    pose proof (utf8_char_length _ _ Hc) as Lb. rewrite app_length in Hf. destruct fuel as [|fuel]; [lia|].
    pose proof (decode_char_ok _ _ r Hc) as D. cbn [fs_decode]. destruct (b ++ r) as [|x y] eqn:E; [destruct b; [cbn in Lb; lia|discriminate]|].
    rewrite D, IH by lia. reflexivity. }
  split; [exact E|]. rewrite E. cbn [do_act]. unfold with_text. cbn [get_embedded_string].
  rewrite (write_text_all true t bs n o H L). reflexivity.
Qed.
Print Assumptions C70_argument_partial.
Example C70_nonvacuous_argument : utf8 [228] [195; 164] /\ argument [195; 164] = [228].
Proof. split; [apply decode_iff|]; reflexivity. Qed.

(** * loadFile: *)
(** A file of UTF-8 that can be opened, read and closed is answered as the string of its
    text, whatever pieces the reads come in; line ends are read as newlines. *)
Theorem C70_load_partial : forall open_ name es bs t, open_ name = File es true ->
  utf8 t bs -> delivers es (universal_newlines t) ->
  exists u, lines_as t u /\
  forall fuel, (total es < fuel)%nat -> load_file fuel open_ (AStr name) = Loaded (Ok (AString u)) 1 1.
Proof.
  intros open_ name es bs t E _ (ps & -> & Hc & F). exists (universal_newlines t). split; [apply newlines_iff; reflexivity|].
  intros fuel Hf. unfold load_file. cbn [get_embedded_string]. rewrite E. unfold readall_from_stream.
  rewrite readall_delivered by (auto; lia). cbn [concat app]. rewrite Hc. reflexivity.
Qed.
Print Assumptions C70_load_partial.
(** Files of any size *)
Example C70_nonvacuous_load : forall n m, utf8 (repeat 97 (S n) ++ [10] ++ repeat 98 (S m)) (repeat 97 (S n) ++ [10] ++ repeat 98 (S m)) /\
  delivers (map Text [repeat 97 (S n); [10]; repeat 98 (S m)]) (universal_newlines (repeat 97 (S n) ++ [10] ++ repeat 98 (S m))).
Proof.
  intros n m.
  assert (A : forall t, Forall (fun c => c < 128) t -> utf8 t t).
  { induction 1 as [|c t Hc Ht IH]; [constructor|]. change (c :: t) with ([c] ++ t) at 2. constructor; auto. constructor; auto. }
  assert (P : forall c n, c < 128 -> Forall (fun c => c < 128) (repeat c n)) by (intros c k Hc; apply Forall_forall; intros x Hx; apply repeat_spec in Hx; subst; exact Hc).
  split.
  - apply A. apply Forall_app. split; [apply P; lia|]. apply Forall_app. split; [repeat constructor|apply P; lia].
  - exists [repeat 97 (S n); [10]; repeat 98 (S m)]. split; [reflexivity|]. split; [|repeat constructor; discriminate].
    assert (U : forall n c t, c <> 13 -> universal_newlines (repeat c n ++ t) = repeat c n ++ universal_newlines t).
    { induction n0 as [|n0 IH]; intros c t Hc; [reflexivity|]. cbn [repeat app universal_newlines]. destruct (N.eqb_spec c 13); [congruence|].
      rewrite IH by exact Hc. reflexivity. }
    rewrite U by lia. cbn [concat]. f_equal. change ([10] ++ repeat 98 (S m)) with (10 :: repeat 98 (S m)).
    rewrite <- (app_nil_r (repeat 98 (S m))) at 2. cbn [universal_newlines]. change (10 =? 13) with false. cbv iota. rewrite U by lia.
    cbn [universal_newlines]. rewrite !app_nil_r. reflexivity.
Qed.
(** Whatever happens: the reading ends; the file is closed as often as it was opened; the
    answer is nil or a string, which is the text up to some point; and an exception comes out
    only for a text that cannot be decoded (or an argument that is no string). *)
Theorem C70_load_any : forall open_ a, exists n, forall fuel, (n <= fuel)%nat ->
  let r := load_file fuel open_ a in
  l_opened r = l_closed r /\
  (forall u, l_result r = Ok (AString u) -> exists name es closes rest,
     a = AStr name /\ open_ name = File es closes /\ before_failure es = u ++ rest) /\
  (forall e, l_result r = Err e -> a = AOther \/ exists name es closes, a = AStr name /\ open_ name = File es closes /\ In Undecodable es).
Proof.
  intros open_ a. destruct a as [name|].
  2:{ exists 0%nat. intros fuel _. cbn. split; [reflexivity|]. split; [discriminate|auto]. }
  destruct (open_ name) as [|es closes] eqn:E.
  { exists 0%nat. intros fuel _. unfold load_file. cbn [get_embedded_string]. rewrite E. cbn. split; [reflexivity|]. split; discriminate. }
  exists (S (total es)). intros fuel Hf. unfold load_file. cbn [get_embedded_string]. rewrite E. cbv zeta. cbn [l_opened l_closed l_result].
  split; [reflexivity|]. destruct closes; [|cbn; split; discriminate].
  pose proof (readall_ends es fuel 8192 [] ltac:(lia) ltac:(lia)) as T.
  assert (V : forall fuel es size result e, readall fuel size result es = Err e -> e = OutOfFuel \/ e = PyException \/ In Undecodable es).
  { clear. induction fuel as [|fuel IH]; intros es size result e H; [injection H as <-; auto|]. cbn [readall] in H.
    destruct (read size es) as [[data|x] es'] eqn:E.
    - destruct data; [discriminate|]. destruct (IH _ _ _ _ H) as [|[|Hu]]; auto. right. right.
      destruct es as [|[t| |] es]; cbn [read] in E; try discriminate. destruct (_ <=? _) in E; injection E as E1 <-; [right; exact Hu|].
      destruct Hu as [Hu|Hu]; [discriminate|right; exact Hu].
    - destruct es as [|[t| |] es]; cbn [read] in E; try discriminate; [destruct (_ <=? _) in E; discriminate| |].
      + injection E as <- _. destruct result; [injection H as <-; auto|discriminate].
      + right. right. left. reflexivity. }
  unfold readall_from_stream. destruct (readall fuel 8192 [] es) as [t|e] eqn:R.
  - cbn [caught]. split; [|discriminate]. intros u Eu. injection Eu as <-.
    destruct (readall_prefix fuel es 8192 [] t ltac:(lia) R) as (rest & B). cbn [concat app] in B. eauto 8.
  - destruct (V _ _ _ _ _ R) as [->|[->|Hu]]; [congruence|cbn; split; discriminate|].
    split; [destruct e; discriminate|]. intros; right. eauto 6.
Qed.
Print Assumptions C70_load_any.
(** A read that fails after some text has been read is not noticed: half of a file. *)
Theorem C70_half_refuted : ~ (forall fuel open_ name es u, open_ name = File es true ->
  l_result (load_file fuel open_ (AStr name)) = Ok (AString u) -> ~ In Broken es).
Proof.
  intros H. apply (H 5%nat (fun _ => File [Text [65]; Broken; Text [66]] true) [] [Text [65]; Broken; Text [66]] [65] eq_refl eq_refl).
  right. left. reflexivity.
Qed.
Print Assumptions C70_half_refuted.
(** A file that is not UTF-8 ends the program with UnicodeDecodeError, where one that cannot
    be read is answered as nil. *)
Theorem C70_undecodable_refuted : ~ (forall fuel open_ name, exists x, l_result (load_file (S (S fuel)) open_ (AStr name)) = Ok x).
Proof. intros H. destruct (H 5%nat (fun _ => File [Undecodable] true) []) as (x & E). discriminate E. Qed.
Print Assumptions C70_undecodable_refuted.
(** A file with carriage returns is not answered as it is. *)
Theorem C70_newlines_refuted : ~ (forall fuel open_ name es bs t, open_ name = File es true ->
  utf8 t bs -> delivers es (universal_newlines t) -> (total es < fuel)%nat ->
  l_result (load_file fuel open_ (AStr name)) = Ok (AString t)).
Proof.
  intros H. specialize (H 9%nat (fun _ => File [Text [65; 10; 66]] true) [] [Text [65; 10; 66]] [65; 13; 10; 66] [65; 13; 10; 66] eq_refl).
  assert (U : utf8 [65; 13; 10; 66] [65; 13; 10; 66]) by (apply decode_iff; reflexivity).
  assert (D : delivers [Text [65; 10; 66]] (universal_newlines [65; 13; 10; 66])).
  { exists [[65; 10; 66]]. split; [reflexivity|]. split; [reflexivity|repeat constructor; discriminate]. }
  specialize (H U D). cbn in H. specialize (H ltac:(lia)). discriminate H.
Qed.
Print Assumptions C70_newlines_refuted.

(** * Lines of the shell *)
(** A line that arrives in pieces that end where characters end is read as its text. *)
Theorem C70_line_partial : forall pieces t bs rest,
  Forall (fun p => snd p <> [] /\ last (snd p) 0 <> 10 /\ utf8 (fst p) (snd p)) pieces -> utf8 t bs ->
  raw_input_str [] (map snd pieces ++ (bs ++ [10]) :: rest) = (Ok (concat (map fst pieces) ++ t), rest).
Proof.
  intros pieces t bs rest F H. rewrite raw_input_pieces by exact F. cbn [raw_input_str app].
  destruct (bs ++ [10]) as [|x y] eqn:E; [destruct bs; discriminate|]. rewrite <- E, last_last, removelast_last.
  change (10 =? 10) with true. cbv iota. rewrite (proj2 (decode_iff _ _) H). reflexivity.
Qed.
Print Assumptions C70_line_partial.
Example C70_nonvacuous_line : Forall (fun p => snd p <> [] /\ last (snd p) 0 <> 10 /\ utf8 (fst p) (snd p)) [([65; 228], [65; 195; 164])] /\
  raw_input_str [] ([65; 195; 164] :: [226; 130; 172; 10] :: []) = (Ok [65; 228; 8364], []).
Proof. split; [constructor; [|constructor]; split; [discriminate|]; split; [discriminate|apply decode_iff; reflexivity]|reflexivity]. Qed.
(** A line whose first 32 bytes end within a character is refused, and its rest is taken for
    the next line. *)
Theorem C70_line_refuted : ~ (forall a b t rest, utf8 t (a ++ b) -> length a = 32%nat -> (0 < length b < 32)%nat ->
  exists u, raw_input_str [] (a :: (b ++ [10]) :: rest) = (Ok u, rest)).
Proof.
  intros H. destruct (H (repeat 97 31 ++ [195]) [164] (repeat 97 31 ++ [228]) []) as (u & E).
  - apply decode_iff. vm_compute. reflexivity.
  - reflexivity.
  - cbn. lia.
  - vm_compute in E. discriminate.
Qed.
Print Assumptions C70_line_refuted.
