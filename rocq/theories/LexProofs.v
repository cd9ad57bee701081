(** Proofs about the lexer. *)
From Coq Require Import ZArith Bool String Ascii List Lia Arith.
From Verif Require Import Base TxtModel LexModel LexSpec.
Import ListNotations.
Open Scope nat_scope.
Open Scope list_scope.

(** * Streams *)
Definition rest (s : stream) : text := skipn (s_pos s) (s_string s).
Fixpoint split_line (s : text) : text * text :=
  match s with
  | [] => ([], [])
  | c :: t => if Ascii.eqb c newline then ([c], t) else (c :: fst (split_line t), snd (split_line t))
  end.

Lemma skipn_skipn_ {A} m n (l : list A) : skipn m (skipn n l) = skipn (m + n) l.
Proof.
  revert l. induction n as [|n IH]; intros l; [now rewrite Nat.add_0_r|].
  rewrite Nat.add_succ_r. destruct l; cbn; [apply skipn_nil|apply IH].
Qed.

Lemma find_newline_split s :
  match find_newline s with
  | Some i => firstn (i + 1) s = fst (split_line s) /\ skipn (i + 1) s = snd (split_line s)
              /\ length (fst (split_line s)) = i + 1
  | None => split_line s = (s, [])
  end.
Proof.
  induction s as [|c t IH]; [reflexivity|].
  cbn [find_newline split_line]. destruct (Ascii.eqb c newline) eqn:E; [cbn; auto|].
  destruct (find_newline t) as [i|].
  - destruct IH as (A & B & C). cbn [Nat.add firstn skipn fst snd length]. rewrite A, B, C. auto.
  - rewrite IH. reflexivity.
Qed.

Lemma split_line_app s : fst (split_line s) ++ snd (split_line s) = s.
Proof.
  induction s as [|c t IH]; [reflexivity|].
  cbn [split_line]. destruct (Ascii.eqb c newline); [reflexivity|].
  cbn [fst snd app]. now rewrite IH.
Qed.

Lemma split_line_ne s : s <> [] -> fst (split_line s) <> [].
Proof.
  destruct s as [|c t]; [congruence|]. intros _. cbn [split_line].
  destruct (Ascii.eqb c newline); cbn; discriminate.
Qed.

Lemma split_line_nl s :
  snd (split_line s) <> [] -> exists b, fst (split_line s) = b ++ [newline].
Proof.
  induction s as [|c t IH]; [cbn; congruence|].
  cbn [split_line]. destruct (Ascii.eqb c newline) eqn:E.
  - intros _. apply Ascii.eqb_eq in E. subst c. now exists [].
  - cbn [fst snd]. intros H. destruct (IH H) as [b ->]. now exists (c :: b).
Qed.

Lemma lines_split s : s <> [] -> lines s = fst (split_line s) :: lines (snd (split_line s)).
Proof.
  induction s as [|c t IH]; [congruence|]. intros _.
  cbn [lines split_line]. change (ascii_of_nat 10) with newline.
  destruct (Ascii.eqb c newline); [reflexivity|]. cbn [fst snd].
  destruct t as [|d t']; [reflexivity|].
  rewrite IH by discriminate. reflexivity.
Qed.

Lemma lines_nil s : lines s = [] -> s = [].
Proof. destruct s; [reflexivity|]. intros H. rewrite lines_split in H by discriminate. discriminate. Qed.

Lemma concat_lines s : concat (lines s) = s.
Proof.
  remember (length s) as n eqn:E. assert (H : length s <= n) by lia. clear E.
  revert s H. induction n as [|n IH]; intros [|c t] H; try reflexivity; [cbn in H; lia|].
  rewrite lines_split by discriminate. cbn [concat]. rewrite IH; [apply split_line_app|].
  pose proof (split_line_app (c :: t)) as A. pose proof (split_line_ne (c :: t)) as B.
  destruct (fst (split_line (c :: t))) as [|x l]; [exfalso; apply B; [discriminate|reflexivity]|].
  apply (f_equal (@length ascii)) in A. rewrite app_length in A. cbn in *. lia.
Qed.

Lemma readline_spec s : s_pos s <= length (s_string s) ->
  fst (readline s) = fst (split_line (rest s)) /\ rest (snd (readline s)) = snd (split_line (rest s)) /\
  s_string (snd (readline s)) = s_string s /\
  s_pos (snd (readline s)) = s_pos s + length (fst (split_line (rest s))) /\
  s_pos (snd (readline s)) <= length (s_string s).
Proof.
  intros Hp. unfold readline.
  assert (Hl : length (rest s) = length (s_string s) - s_pos s) by (unfold rest; apply skipn_length).
  pose proof (find_newline_split (rest s)) as F. fold (rest s) in *.
  destruct (find_newline (rest s)) as [i|].
  - destruct F as (A & B & C). unfold s_read. cbn [fst snd s_string s_pos]. fold (rest s).
    rewrite A. split; [reflexivity|]. split.
    { unfold rest at 1. cbn [s_string s_pos]. rewrite C, <- B. unfold rest.
      rewrite Nat.add_comm. now rewrite skipn_skipn_. }
    split; [reflexivity|]. split; [reflexivity|].
    apply (f_equal (@length ascii)) in A. rewrite firstn_length in A. lia.
  - destruct (Nat.eqb (s_pos s) 0) eqn:E.
    + apply Nat.eqb_eq in E. cbn [fst snd s_string s_pos].
      assert (R : rest s = s_string s) by (unfold rest; now rewrite E).
      rewrite F. cbn [fst snd]. split; [now rewrite R|]. split.
      { unfold rest. cbn [s_string s_pos]. apply skipn_all. }
      rewrite R. split; [reflexivity|]. lia.
    + unfold s_read. cbn [fst snd s_string s_pos]. fold (rest s).
      rewrite F. cbn [fst snd]. rewrite <- Hl, firstn_all. split; [reflexivity|]. split.
      { unfold rest at 1. cbn [s_string s_pos]. apply skipn_all2. lia. }
      split; [reflexivity|]. lia.
Qed.

(** * Lexer states *)
Definition R (st : lexer) : text := l_cur st ++ rest (l_in st).
(** The buffer ends with a newline unless it is the last line. *)
Definition line_end (st : lexer) : Prop :=
  rest (l_in st) <> [] -> l_cur st <> [] -> exists b, l_cur st = b ++ [newline].
Record exact (T : text) (st : lexer) : Prop := {
  e_str : s_string (l_in st) = T;
  e_pos : s_pos (l_in st) <= length T;
  e_len : l_bufp st + length (l_cur st) = l_len st;
  e_lines : exists pre, lines T = pre ++ lines (rest (l_in st)) /\ length pre = l_line st /\
              length (concat pre) = s_pos (l_in st) /\ l_chars st = length (concat (removelast pre)) /\
              l_len st = length (last pre []);
  e_nl : line_end st }.
Record eof (T : text) (st : lexer) : Prop := {
  f_str : s_string (l_in st) = T;
  f_pos : s_pos (l_in st) = length T;
  f_cur : l_cur st = [];
  f_len : l_len st = 0;
  f_chars : l_chars st = length T;
  f_bufp : l_bufp st = length (last (lines T) []);
  f_line : l_line st = length (lines T) }.
Definition inv (T : text) (st : lexer) : Prop := exact T st \/ eof T st.

Lemma rest_length st T : s_string (l_in st) = T -> length (rest (l_in st)) = length T - s_pos (l_in st).
Proof. intros <-. unfold rest. apply skipn_length. Qed.

Lemma removelast_last_length (l : list text) :
  length (concat l) = length (concat (removelast l)) + length (last l []).
Proof.
  destruct l as [|x l]; [reflexivity|].
  rewrite (app_removelast_last [] (l := x :: l)) at 1 by discriminate.
  rewrite concat_app, app_length. cbn [concat]. now rewrite app_nil_r.
Qed.

Lemma exact_chars T st : exact T st -> chars_read st + length (R st) = length T.
Proof.
  intros H. destruct (e_lines _ _ H) as (pre & A & B & C & D & E).
  pose proof (rest_length st T (e_str _ _ H)). pose proof (e_pos _ _ H). pose proof (e_len _ _ H).
  pose proof (removelast_last_length pre).
  unfold chars_read, R. rewrite app_length. lia.
Qed.

Lemma eof_R T st : eof T st -> R st = [].
Proof.
  intros H. unfold R. rewrite (f_cur _ _ H). unfold rest. cbn [app].
  rewrite (f_str _ _ H), (f_pos _ _ H). apply skipn_all.
Qed.

Lemma inv_new T : inv T (new_lexer T).
Proof.
  left. constructor; cbn; try lia; [reflexivity| | ].
  - exists []. cbn. auto.
  - intros _ H. cbn in H. congruence.
Qed.
Lemma R_new T : R (new_lexer T) = T.
Proof. reflexivity. Qed.

Lemma skipn_app_le {A} n (l m : list A) : n <= length l -> skipn n (l ++ m) = skipn n l ++ m.
Proof.
  intros H. rewrite skipn_app. replace (n - length l) with 0 by lia. reflexivity.
Qed.

Lemma R_adv st n : n <= length (l_cur st) -> R (adv st n) = skipn n (R st).
Proof. intros H. unfold R, adv. cbn. now rewrite skipn_app_le. Qed.

Lemma adv_exact T st n : exact T st -> n <= length (l_cur st) -> exact T (adv st n).
Proof.
  intros [A B C D E] H. constructor; cbn; auto.
  - rewrite skipn_length. lia.
  - unfold line_end in *. cbn. intros F G. destruct (E F) as [b Hb].
    { intros K. rewrite K in G. now rewrite skipn_nil in G. }
    rewrite Hb in *. assert (n <= length b).
    { rewrite app_length in H. cbn in H. destruct (Nat.eq_dec n (length b + 1)) as [->|]; [|lia].
      exfalso. apply G. apply skipn_all2. rewrite app_length. cbn. lia. }
    rewrite skipn_app_le by assumption. eauto.
Qed.

Lemma fill_spec T st : inv T st -> l_cur st = [] ->
  let (more, st') := fill_buffer st in
  R st' = R st /\ (if more then exact T st' /\ l_cur st' <> [] else eof T st' /\ R st = []).
Proof.
  intros I Hc. unfold fill_buffer.
  assert (P : s_pos (l_in st) <= length (s_string (l_in st))).
  { destruct I as [I | I]; [rewrite (e_str _ _ I); apply I|]. rewrite (f_str _ _ I), (f_pos _ _ I). lia. }
  destruct (readline_spec (l_in st) P) as (A & B & C & D & E).
  destruct (readline (l_in st)) as [buf s'] eqn:RL. cbn [fst snd] in *.
  destruct buf as [|c b].
  - (* end of file *)
    assert (Z : rest (l_in st) = []).
    { destruct (rest (l_in st)) as [|x l] eqn:Q; [reflexivity|].
      exfalso. apply (split_line_ne (x :: l)); [discriminate|]. now rewrite <- A. }
    assert (RS : R st = []) by (unfold R; now rewrite Hc, Z).
    assert (R1 : rest s' = []) by (rewrite B, Z; reflexivity).
    split; [unfold R; cbn; now rewrite R1, Hc, Z|]. split; [|assumption].
    rewrite Z in D. cbn in D. rewrite Nat.add_0_r in D.
    destruct I as [I | I].
    + destruct (e_lines _ _ I) as (pre & L1 & L2 & L3 & L4 & L5).
      rewrite Z in L1. cbn in L1. rewrite app_nil_r in L1. subst pre.
      pose proof (removelast_last_length (lines T)) as Q. rewrite concat_lines in *.
      pose proof (e_len _ _ I) as Q2. rewrite Hc in Q2. cbn in Q2.
      constructor; cbn; auto.
      * now rewrite C, (e_str _ _ I).
      * lia.
      * lia.
      * lia.
    + constructor; cbn; auto; try apply I.
      * rewrite C. apply I.
      * rewrite D. apply I.
      * rewrite (f_chars _ _ I), (f_len _ _ I). lia.
  - assert (NE : rest (l_in st) <> []).
    { intros Z. rewrite Z in A. discriminate. }
    assert (I' : exact T st).
    { destruct I as [I | I]; [assumption|]. exfalso. apply NE. pose proof (eof_R _ _ I) as Q.
      unfold R in Q. now rewrite (f_cur _ _ I) in Q. }
    clear I. rename I' into I.
    split; [unfold R; cbn [l_cur l_in]; rewrite B, A, Hc; apply split_line_app|].
    split; [|discriminate].
    destruct (e_lines _ _ I) as (pre & L1 & L2 & L3 & L4 & L5).
    constructor; cbn [l_cur l_in l_bufp l_len l_line l_chars].
    + rewrite C. apply I.
    + now rewrite <- (e_str _ _ I).
    + reflexivity.
    + exists (pre ++ [fst (split_line (rest (l_in st)))]).
      rewrite removelast_last, last_last. rewrite L1, B.
      split; [rewrite <- app_assoc; cbn [app]; f_equal; now apply lines_split|].
      split; [rewrite app_length; cbn; lia|].
      split; [rewrite concat_app, app_length; cbn [concat]; rewrite app_nil_r; lia|].
      split; [rewrite (removelast_last_length pre); lia|]. now rewrite A.
    + intros F G. cbn [l_cur l_in] in *. rewrite A. apply split_line_nl. now rewrite <- B.
Qed.

Lemma refill_spec T st : inv T st ->
  let (more, st') := refill st in
  R st' = R st /\ (if more then exact T st' /\ l_cur st' <> [] else eof T st' /\ R st = []).
Proof.
  intros I. unfold refill, end_of_buffer. destruct (l_cur st) as [|c b] eqn:E.
  - now apply fill_spec.
  - split; [reflexivity|]. split; [|congruence].
    destruct I as [I | I]; [assumption|]. now rewrite (f_cur _ _ I) in E.
Qed.

(** The next character. *)
Definition hd0 (s : text) : ascii := nth 0 s nul.
Lemma cur_R st : l_cur st <> [] -> cur st = hd0 (R st).
Proof. unfold cur, bufchar, hd0, R. destruct (l_cur st); [congruence|reflexivity]. Qed.

Lemma R_ne st : l_cur st <> [] -> R st <> [].
Proof. unfold R. destruct (l_cur st); [congruence|discriminate]. Qed.

Lemma cur_len st : l_cur st <> [] -> 1 <= length (l_cur st).
Proof. destruct (l_cur st); [congruence|cbn; lia]. Qed.

(** * Skipping *)
Fixpoint drop_white (s : text) : text :=
  match s with [] => [] | c :: t => if is_space c then drop_white t else s end.
Fixpoint drop_comment (s : text) : text :=
  match s with [] => [] | c :: t => if Ascii.eqb c dquote then t else drop_comment t end.
(** [skip false s]: [s] without the separators at its start; [skip true s] inside a comment. *)
Fixpoint skip (com : bool) (s : text) : text :=
  match s with
  | [] => []
  | c :: t => if com then skip (negb (Ascii.eqb c dquote)) t
              else if is_space c then skip false t
              else if Ascii.eqb c dquote then skip true t else s
  end.

Lemma skip_drop_white s : skip false (drop_white s) = skip false s.
Proof. induction s as [|c t IH]; [reflexivity|]. cbn. destruct (is_space c) eqn:E; [assumption|]. cbn. now rewrite E. Qed.
Lemma skip_drop_comment s : skip false (drop_comment s) = skip true s.
Proof. induction s as [|c t IH]; [reflexivity|]. cbn. destruct (Ascii.eqb c dquote); [reflexivity|assumption]. Qed.
Lemma drop_white_len s : length (drop_white s) <= length s.
Proof. induction s as [|c t IH]; [cbn; lia|]. cbn. destruct (is_space c); cbn; lia. Qed.
Lemma drop_comment_len s : length (drop_comment s) <= length s.
Proof. induction s as [|c t IH]; [cbn; lia|]. cbn. destruct (Ascii.eqb c dquote); lia. Qed.

(** [at_ T st]: the state has a current character, or the text is used up. *)
Definition at_ (T : text) (st : lexer) : Prop := (exact T st /\ l_cur st <> []) \/ (eof T st /\ R st = []).

Lemma at_inv T st : at_ T st -> inv T st.
Proof. intros [[A _] | [A _]]; [left|right]; assumption. Qed.

Lemma at_step T st : exact T st -> l_cur st <> [] ->
  let (more, st') := refill (adv st 1) in
  at_ T st' /\ R st' = skipn 1 (R st) /\ more = negb (match R st' with [] => true | _ => false end).
Proof.
  intros E C. pose proof (cur_len _ C) as L.
  pose proof (refill_spec T (adv st 1) (or_introl (adv_exact T st 1 E L))) as F.
  destruct (refill (adv st 1)) as [more st']. destruct F as [F G]. rewrite R_adv in F by assumption.
  destruct more.
  - split; [left; exact G|]. split; [assumption|]. destruct G as [_ G].
    apply R_ne in G. destruct (R st'); [congruence|reflexivity].
  - destruct G as [G H]. rewrite R_adv in H by assumption.
    split; [right; split; [assumption|congruence]|]. split; [assumption|]. rewrite F, H. reflexivity.
Qed.

Lemma at_cur T st : at_ T st -> cur st = hd0 (R st).
Proof.
  intros [[_ H] | [A H]]; [now apply cur_R|]. rewrite H. unfold cur, bufchar. now rewrite (f_cur _ _ A).
Qed.

Lemma eof_at T st : eof T st -> at_ T st.
Proof. intros H. right. split; [assumption|]. now apply (eof_R T). Qed.

Lemma skip_white_spec T : forall fuel st, at_ T st -> length (R st) < fuel ->
  exists st', skip_white_space fuel st = Ok st' /\ at_ T st' /\ R st' = drop_white (R st).
Proof.
  induction fuel as [|f IH]; intros st A L; [lia|].
  cbn [skip_white_space]. rewrite (at_cur T) by assumption.
  destruct A as [[E C] | [E C]].
  - pose proof (R_ne _ C) as N. destruct (R st) as [|c t] eqn:ER; [congruence|].
    unfold hd0. cbn [nth drop_white]. destruct (is_space c) eqn:W.
    + pose proof (at_step T st E C) as S. destruct (refill (adv st 1)) as [more st'].
      destruct S as (S1 & S2 & S3). rewrite ER in S2. cbn [skipn] in S2. rewrite S2 in S3.
      destruct t as [|d t'].
      * subst more. cbn [negb]. exists st'. auto.
      * subst more. cbn [negb]. rewrite <- S2. apply IH; [assumption|]. rewrite S2. cbn [length] in *. lia.
    + exists st. rewrite ER. split; [reflexivity|]. split; [|reflexivity]. left. auto.
  - rewrite C. cbn. exists st. split; [reflexivity|]. split; [|assumption]. right. auto.
Qed.

Lemma comment_spec T : forall fuel st, exact T st -> l_cur st <> [] -> length (R st) <= fuel ->
  exists st', comment_loop fuel st = Ok st' /\ inv T st' /\ R st' = drop_comment (skipn 1 (R st)).
Proof.
  induction fuel as [|f IH]; intros st E C L.
  { pose proof (R_ne _ C). destruct (R st); [congruence|cbn in L; lia]. }
  cbn [comment_loop]. pose proof (R_ne _ C) as N. destruct (R st) as [|c t] eqn:ER; [congruence|].
  cbn [skipn]. pose proof (at_step T st E C) as S. destruct (refill (adv st 1)) as [more st'].
  destruct S as (S1 & S2 & S3). rewrite ER in S2. cbn [skipn] in S2. rewrite S2 in S3.
  destruct t as [|d t'].
  - subst more. cbn [negb]. exists st'. split; [reflexivity|]. split; [now apply at_inv|assumption].
  - subst more. cbn [negb]. rewrite (at_cur T) by assumption. rewrite S2. unfold hd0. cbn [nth drop_comment].
    destruct S1 as [[S1 S1'] | [_ S1]]; [|congruence].
    destruct (Ascii.eqb d dquote).
    + exists (adv st' 1). split; [reflexivity|]. pose proof (cur_len _ S1').
      split; [left; now apply adv_exact|]. rewrite R_adv by assumption. rewrite S2. reflexivity.
    + destruct (IH st' S1 S1') as (st2 & K1 & K2 & K3); [rewrite S2; cbn [length] in *; lia|].
      exists st2. rewrite S2 in K3. auto.
Qed.

Lemma end_of_buffer_spec st : end_of_buffer st = true <-> l_cur st = [].
Proof. unfold end_of_buffer. destruct (l_cur st); split; congruence. Qed.

(** * Tokens on the whole text *)
Inductive sres := SDone (s r : text) | SOpen | SBad.
Fixpoint str_body (s : text) : sres :=
  match s with
  | [] => SOpen
  | c :: t =>
      if Ascii.eqb c "'" then SDone [] t
      else if Ascii.eqb c "\" then
        match t with
        | [] => SBad
        | e :: t' => match str_body t' with SDone b r => SDone (escape_char e ++ b) r | x => x end
        end
      else match str_body t with SDone b r => SDone (c :: b) r | x => x end
  end.

Definition p_char (k : sym) (s : text) : token * text := ((k, [hd0 s]), skipn 1 s).
Definition p_operator (s : text) : token * text :=
  if is_operator (nth 1 s nul) then
    let t := scan is_operator s in ((OperatorSequence, t), skipn (length t) s)
  else p_char (operator_sym (hd0 s)) s.
Definition p_number (s : text) : token * text :=
  let d1 := scan is_digit s in
  let s1 := skipn (length d1) s in
  if Ascii.eqb (hd0 s1) "." && is_digit (nth 1 s1 nul) then
    let d2 := scan is_digit (skipn 1 s1) in
    ((Double, d1 ++ "."%char :: d2), skipn (S (length d2)) s1)
  else ((Integer, d1), s1).
Definition p_word (s : text) : token * text :=
  let w := scan is_word s in
  let s1 := skipn (length w) s in
  if Ascii.eqb (hd0 s1) ":" then
    let s2 := skipn 1 s1 in
    if is_alpha (hd0 s2) then
      let k := scan is_key s2 in
      ((KeywordSequence, w ++ ":"%char :: k), skipn (length k) s2)
    else ((Keyword, w ++ [":"%char]), s2)
  else ((Identifier, w), s1).
(** Everything but strings; [None] for a character that starts no token. *)
Definition p_token (s : text) : option (token * text) :=
  let c := hd0 s in
  (if Ascii.eqb c "[" then Some (p_char NewBlock s)
   else if Ascii.eqb c "]" then Some (p_char EndBlock s)
   else if Ascii.eqb c ":" then
     if Ascii.eqb (nth 1 s nul) "="
     then Some ((Assign, [":"; "="]), skipn 2 s)
     else Some ((Colon, [":"]), skipn 1 s)
   else if Ascii.eqb c "(" then Some (p_char NewTerm s)
   else if Ascii.eqb c ")" then Some (p_char EndTerm s)
   else if Ascii.eqb c "#" then Some (p_char Pound s)
   else if Ascii.eqb c "^" then Some (p_char Exit s)
   else if Ascii.eqb c "." then Some (p_char Period s)
   else if Ascii.eqb c "-" then
     if starts_with SEPARATOR s
     then let t := scan (Ascii.eqb "-") s in Some ((Separator, t), skipn (length t) s)
     else Some (p_operator s)
   else if is_operator c then Some (p_operator s)
   else if starts_with PRIMITIVE s && negb (is_alnum (nth (length PRIMITIVE) s nul))
   then Some ((Primitive, PRIMITIVE), skipn (length PRIMITIVE) s)
   else if is_alpha c then Some (p_word s)
   else if is_digit c then Some (p_number s)
   else None)%char.

(** ** The line buffer shows the same characters *)
(** [sees st]: the buffer ends with a newline or nothing follows it. *)
Definition sees (st : lexer) : Prop := rest (l_in st) <> [] -> exists b, l_cur st = b ++ [newline].
Lemma exact_sees T st : exact T st -> l_cur st <> [] -> sees st.
Proof. intros E C N. now apply (e_nl _ _ E). Qed.

Lemma scan_app p s t c : p c = false -> scan p ((s ++ [c]) ++ t) = scan p (s ++ [c]).
Proof.
  intros H. induction s as [|d s IH]; cbn.
  - now rewrite H.
  - destruct (p d); [|reflexivity]. f_equal. exact IH.
Qed.
Lemma scan_R st p : sees st -> p newline = false -> scan p (l_cur st) = scan p (R st).
Proof.
  intros S H. unfold R. destruct (rest (l_in st)) as [|x l] eqn:E; [now rewrite app_nil_r|].
  destruct S as [b Hb]; [congruence|]. rewrite Hb. symmetry. now apply scan_app.
Qed.
Lemma bufchar_R st i : sees st -> (forall j, j < i -> nth j (R st) nul <> newline) ->
  bufchar st i = nth i (R st) nul.
Proof.
  intros S H. unfold bufchar, R in *. destruct (rest (l_in st)) as [|x l] eqn:E; [now rewrite app_nil_r|].
  destruct S as [b Hb]; [congruence|]. rewrite Hb in *.
  destruct (lt_dec i (length (b ++ [newline]))) as [L|L]; [symmetry; now apply app_nth1|].
  exfalso. rewrite app_length in L. cbn in L. apply (H (length b)); [lia|].
  rewrite app_nth1 by (rewrite app_length; cbn; lia). rewrite app_nth2, Nat.sub_diag by lia. reflexivity.
Qed.
Lemma starts_with_R st p : sees st -> ~ In newline p -> starts_with p (l_cur st) = starts_with p (R st).
Proof.
  intros S N. unfold R. destruct (rest (l_in st)) as [|x l] eqn:E; [now rewrite app_nil_r|].
  destruct S as [b Hb]; [congruence|]. rewrite Hb. clear - N.
  revert b. induction p as [|a p IH]; intros b; [destruct b; reflexivity|].
  destruct b as [|d b]; cbn [starts_with app].
  - destruct (Ascii.eqb a newline) eqn:Q; [|reflexivity].
    apply Ascii.eqb_eq in Q. exfalso. apply N. now left.
  - destruct (Ascii.eqb a d); [|reflexivity]. cbn [andb]. apply IH. intros H. apply N. now right.
Qed.
Lemma scan_prefix p s : exists r, s = scan p s ++ r /\ (match r with [] => True | c :: _ => p c = false end)
  /\ Forall (fun c => p c = true) (scan p s).
Proof.
  induction s as [|c t IH]; [exists []; cbn; auto|].
  cbn. destruct (p c) eqn:E.
  - destruct IH as (r & A & B & C). exists r. split; [cbn; now rewrite <- A|]. auto.
  - exists (c :: t). cbn. auto.
Qed.
Lemma scan_len p s : length (scan p s) <= length s.
Proof. induction s as [|c t IH]; cbn; [lia|]. destruct (p c); cbn; lia. Qed.

(** Moving over characters that are no newlines keeps the view. *)
Lemma adv_sees st n : sees st -> n <= length (l_cur st) ->
  (forall j, j < n -> nth j (R st) nul <> newline) -> sees (adv st n).
Proof.
  intros S L H N. cbn [adv l_in l_cur] in *. destruct (S N) as [b Hb]. rewrite Hb in *.
  assert (n <= length b).
  { rewrite app_length in L. cbn in L. destruct (Nat.eq_dec n (length b + 1)) as [->|]; [|lia].
    exfalso. apply (H (length b)); [lia|]. unfold R. rewrite Hb.
    rewrite app_nth1 by (rewrite app_length; cbn; lia). rewrite app_nth2, Nat.sub_diag by lia. reflexivity. }
  rewrite skipn_app_le by assumption. eauto.
Qed.
Lemma scan_no_newline p s : p newline = false -> forall j, j < length (scan p s) -> nth j s nul <> newline.
Proof.
  intros H. induction s as [|c t IH]; intros j L; [cbn in L; lia|].
  cbn in L. destruct (p c) eqn:E; [|cbn in L; lia].
  destruct j; cbn [nth]; [congruence|]. apply IH. cbn in L. lia.
Qed.

Lemma bufchar_len st i : bufchar st i <> nul -> i < length (l_cur st).
Proof.
  unfold bufchar. intros H. destruct (lt_dec i (length (l_cur st))); [assumption|].
  exfalso. apply H. apply nth_overflow. lia.
Qed.
Lemma scan_head p c t : p c = true -> 1 <= length (scan p (c :: t)).
Proof. intros H. cbn. rewrite H. cbn. lia. Qed.

Lemma is_space_newline : is_space newline = true. Proof. reflexivity. Qed.
Lemma is_word_newline : is_word newline = false. Proof. reflexivity. Qed.
Lemma is_key_newline : is_key newline = false. Proof. reflexivity. Qed.
Lemma is_digit_newline : is_digit newline = false. Proof. reflexivity. Qed.
Lemma is_op_newline : is_operator newline = false. Proof. reflexivity. Qed.

(** [moved T st st' n]: the state after moving over [n] characters. *)
Definition moved (T : text) (st st' : lexer) (n : nat) : Prop :=
  exact T st' /\ R st' = skipn n (R st).
Lemma adv_moved T st n : exact T st -> n <= length (l_cur st) -> moved T st (adv st n) n.
Proof. intros E L. split; [now apply adv_exact|now apply R_adv]. Qed.

Lemma sees_cur st : sees st -> cur st = hd0 (R st).
Proof. intros S. unfold cur, hd0. apply bufchar_R; [assumption|]. intros j Hj. lia. Qed.

Lemma lex_word_pure T st : exact T st -> sees st ->
  exists st', lex_word st = (fst (p_word (R st)), st') /\ exact T st' /\ R st' = snd (p_word (R st)).
Proof.
  intros E S. unfold lex_word, p_word. cbv zeta.
  rewrite (scan_R st is_word S is_word_newline).
  set (w := scan is_word (R st)).
  assert (L : length w <= length (l_cur st)).
  { unfold w. rewrite <- (scan_R st is_word S is_word_newline). apply scan_len. }
  assert (S1 : sees (adv st (length w))).
  { apply adv_sees; [assumption|assumption|]. apply scan_no_newline. reflexivity. }
  destruct (adv_moved T st _ E L) as [E1 R1].
  set (st1 := adv st (length w)) in *. rewrite (sees_cur st1 S1), <- R1.
  destruct (Ascii.eqb (hd0 (R st1)) ":") eqn:C.
  2:{ exists st1. auto. }
  assert (L1 : 1 <= length (l_cur st1)).
  { apply (bufchar_len st1 0). fold (cur st1). rewrite (sees_cur st1 S1).
    apply Ascii.eqb_eq in C. rewrite C. discriminate. }
  assert (S2 : sees (adv st1 1)).
  { apply adv_sees; [assumption|assumption|]. intros j Hj. assert (j = 0) as -> by lia.
    fold (hd0 (R st1)). apply Ascii.eqb_eq in C. rewrite C. discriminate. }
  destruct (adv_moved T st1 _ E1 L1) as [E2 R2].
  set (st2 := adv st1 1) in *. rewrite (sees_cur st2 S2), <- R2.
  destruct (is_alpha (hd0 (R st2))); [|exists st2; auto].
  rewrite (scan_R st2 is_key S2 is_key_newline).
  set (k := scan is_key (R st2)).
  assert (L2 : length k <= length (l_cur st2)).
  { unfold k. rewrite <- (scan_R st2 is_key S2 is_key_newline). apply scan_len. }
  destruct (adv_moved T st2 _ E2 L2) as [E3 R3]. eexists. split; [reflexivity|]. auto.
Qed.

Lemma lex_number_pure T st : exact T st -> sees st ->
  exists st', lex_number st = (fst (p_number (R st)), st') /\ exact T st' /\ R st' = snd (p_number (R st)).
Proof.
  intros E S. unfold lex_number, p_number. cbv zeta.
  rewrite (scan_R st is_digit S is_digit_newline).
  set (w := scan is_digit (R st)).
  assert (L : length w <= length (l_cur st)).
  { unfold w. rewrite <- (scan_R st is_digit S is_digit_newline). apply scan_len. }
  assert (S1 : sees (adv st (length w))).
  { apply adv_sees; [assumption|assumption|]. apply scan_no_newline. reflexivity. }
  destruct (adv_moved T st _ E L) as [E1 R1].
  set (st1 := adv st (length w)) in *. rewrite (sees_cur st1 S1), <- R1.
  destruct (Ascii.eqb (hd0 (R st1)) ".") eqn:C; cbn [andb].
  2:{ exists st1. auto. }
  assert (N : forall j, j < 1 -> nth j (R st1) nul <> newline).
  { intros j Hj. assert (j = 0) as -> by lia.
    fold (hd0 (R st1)). apply Ascii.eqb_eq in C. rewrite C. discriminate. }
  rewrite (bufchar_R st1 1 S1 N).
  destruct (is_digit (nth 1 (R st1) nul)) eqn:D; [|exists st1; auto].
  assert (L1 : 1 <= length (l_cur st1)).
  { apply (bufchar_len st1 0). fold (cur st1). rewrite (sees_cur st1 S1).
    apply Ascii.eqb_eq in C. rewrite C. discriminate. }
  assert (S2 : sees (adv st1 1)) by (apply adv_sees; assumption).
  destruct (adv_moved T st1 _ E1 L1) as [E2 R2].
  change (skipn 1 (l_cur st1)) with (l_cur (adv st1 1)).
  rewrite (scan_R _ is_digit S2 is_digit_newline), R2.
  set (k := scan is_digit (skipn 1 (R st1))).
  assert (L2 : 1 + length k <= length (l_cur st1)).
  { unfold k. rewrite <- R2. rewrite <- (scan_R _ is_digit S2 is_digit_newline).
    pose proof (scan_len is_digit (l_cur (adv st1 1))) as Q. cbn [adv l_cur] in *.
    rewrite skipn_length in Q. lia. }
  destruct (adv_moved T st1 _ E1 L2) as [E3 R3]. eexists. split; [reflexivity|]. auto.
Qed.

Lemma match_pure T st k : exact T st -> sees st -> l_cur st <> [] ->
  exists st', match_ k st = (fst (p_char k (R st)), st') /\ exact T st' /\ R st' = snd (p_char k (R st)).
Proof.
  intros E S N. unfold match_, p_char. rewrite (sees_cur st S).
  destruct (adv_moved T st 1 E (cur_len _ N)) as [A B]. eexists. split; [reflexivity|]. auto.
Qed.

Lemma lex_operator_pure T st : exact T st -> sees st -> l_cur st <> [] -> is_operator (hd0 (R st)) = true ->
  exists st', lex_operator st = (fst (p_operator (R st)), st') /\ exact T st' /\ R st' = snd (p_operator (R st)).
Proof.
  intros E S N O. unfold lex_operator, p_operator. cbv zeta.
  rewrite (bufchar_R st 1 S).
  2:{ intros j Hj. assert (j = 0) as -> by lia. fold (hd0 (R st)). intros Q. rewrite Q in O. discriminate. }
  destruct (is_operator (nth 1 (R st) nul)).
  - rewrite (scan_R st is_operator S is_op_newline).
    assert (L : length (scan is_operator (R st)) <= length (l_cur st)).
    { rewrite <- (scan_R st is_operator S is_op_newline). apply scan_len. }
    destruct (adv_moved T st _ E L) as [A B]. eexists. split; [reflexivity|]. auto.
  - rewrite (sees_cur st S). now apply match_pure.
Qed.

Lemma starts_with_app p s : starts_with p s = true -> exists r, s = p ++ r.
Proof.
  revert s. induction p as [|a p IH]; intros s H; [now exists s|].
  destruct s as [|b s]; [discriminate|]. cbn in H. apply andb_true_iff in H as [A B].
  apply Ascii.eqb_eq in A. subst b. destruct (IH s B) as [r ->]. now exists r.
Qed.
Lemma starts_with_iff p s : starts_with p s = true <-> exists r, s = p ++ r.
Proof.
  split; [apply starts_with_app|]. intros [r ->].
  induction p as [|a p IH]; [reflexivity|]. cbn. now rewrite Ascii.eqb_refl, IH.
Qed.
Lemma starts_with_len p s : starts_with p s = true -> length p <= length s.
Proof. intros H. apply starts_with_app in H as [r ->]. rewrite app_length. lia. Qed.

Lemma lex_token_pure T fuel st : exact T st -> l_cur st <> [] -> hd0 (R st) <> "'"%char ->
  match p_token (R st) with
  | Some (t, r) => exists st', lex_token fuel st = Ok (t, st') /\ exact T st' /\ R st' = r
  | None => lex_token fuel st = Ok ((NONE, [hd0 (R st)]), st)
  end.
Proof.
  intros E N Q. pose proof (exact_sees T st E N) as S.
  unfold lex_token, p_token. cbv zeta. rewrite (sees_cur st S).
  assert (Q' : Ascii.eqb (hd0 (R st)) "'" = false) by (now apply Ascii.eqb_neq). rewrite Q'.
  assert (M : forall k, match Some (p_char k (R st)) with
     | Some (t, r) => exists st', Ok (match_ k st) = Ok (t, st') /\ exact T st' /\ R st' = r
     | None => True end).
  { intros k. destruct (match_pure T st k E S N) as (st' & A & B & C).
    destruct (p_char k (R st)) as [t r]. exists st'. rewrite A. auto. }
  destruct (Ascii.eqb (hd0 (R st)) "["); [apply M|].
  destruct (Ascii.eqb (hd0 (R st)) "]"); [apply M|].
  destruct (Ascii.eqb (hd0 (R st)) ":") eqn:C.
  { apply Ascii.eqb_eq in C.
    assert (NN : forall j, j < 1 -> nth j (R st) nul <> newline).
    { intros j Hj. assert (j = 0) as -> by lia. fold (hd0 (R st)). rewrite C. discriminate. }
    rewrite (bufchar_R st 1 S NN). destruct (Ascii.eqb (nth 1 (R st) nul) "=") eqn:D.
    - assert (L : 2 <= length (l_cur st)).
      { apply (bufchar_len st 1). rewrite (bufchar_R st 1 S NN). apply Ascii.eqb_eq in D.
        rewrite D. discriminate. }
      destruct (adv_moved T st _ E L) as [A B]. eexists. split; [reflexivity|]. auto.
    - destruct (adv_moved T st 1 E (cur_len _ N)) as [A B]. eexists. split; [reflexivity|]. auto. }
  destruct (Ascii.eqb (hd0 (R st)) "("); [apply M|].
  destruct (Ascii.eqb (hd0 (R st)) ")"); [apply M|].
  destruct (Ascii.eqb (hd0 (R st)) "#"); [apply M|].
  destruct (Ascii.eqb (hd0 (R st)) "^"); [apply M|].
  destruct (Ascii.eqb (hd0 (R st)) "."); [apply M|].
  assert (OP : is_operator (hd0 (R st)) = true -> match Some (p_operator (R st)) with
     | Some (t, r) => exists st', Ok (lex_operator st) = Ok (t, st') /\ exact T st' /\ R st' = r
     | None => True end).
  { intros O. destruct (lex_operator_pure T st E S N O) as (st' & A & B & C').
    destruct (p_operator (R st)) as [t r]. exists st'. rewrite A. auto. }
  destruct (Ascii.eqb (hd0 (R st)) "-") eqn:D.
  { rewrite (starts_with_R st SEPARATOR S).
    2:{ cbn. intuition discriminate. }
    destruct (starts_with SEPARATOR (R st)).
    - rewrite (scan_R st (Ascii.eqb "-") S) by reflexivity.
      assert (L : length (scan (Ascii.eqb "-") (R st)) <= length (l_cur st)).
      { rewrite <- (scan_R st (Ascii.eqb "-") S) by reflexivity. apply scan_len. }
      destruct (adv_moved T st _ E L) as [A B]. eexists. split; [reflexivity|]. auto.
    - apply OP. apply Ascii.eqb_eq in D. rewrite D. reflexivity. }
  destruct (is_operator (hd0 (R st))) eqn:O; [now apply OP|].
  assert (PR : next_word_is_primitive st =
    starts_with PRIMITIVE (R st) && negb (is_alnum (nth (length PRIMITIVE) (R st) nul))).
  { unfold next_word_is_primitive. rewrite (starts_with_R st PRIMITIVE S).
    2:{ cbn. intuition discriminate. }
    destruct (starts_with PRIMITIVE (R st)) eqn:P; [|reflexivity]. cbn [andb]. f_equal. f_equal.
    apply bufchar_R; [assumption|]. intros j Hj. apply starts_with_app in P as [r ->].
    rewrite app_nth1 by assumption. intros H. assert (I : In newline PRIMITIVE).
    { rewrite <- H. now apply nth_In. }
    cbn in I. intuition discriminate. }
  rewrite PR. destruct (starts_with PRIMITIVE (R st) && negb (is_alnum (nth (length PRIMITIVE) (R st) nul))) eqn:P.
  { apply andb_true_iff in P as [P _]. rewrite <- (starts_with_R st PRIMITIVE S) in P.
    2:{ cbn. intuition discriminate. }
    apply starts_with_len in P. destruct (adv_moved T st _ E P) as [A B].
    eexists. split; [reflexivity|]. auto. }
  destruct (is_alpha (hd0 (R st))).
  { destruct (lex_word_pure T st E S) as (st' & A & B & C'). destruct (p_word (R st)) as [t r].
    exists st'. rewrite A. auto. }
  destruct (is_digit (hd0 (R st))).
  { destruct (lex_number_pure T st E S) as (st' & A & B & C'). destruct (p_number (R st)) as [t r].
    exists st'. rewrite A. auto. }
  reflexivity.
Qed.

(** ** Strings *)
Lemma string_char_step T st c t : at_ T st -> R st = c :: t -> c <> "\"%char ->
  exists st', lex_string_char st = Ok ([c], st') /\ at_ T st' /\ R st' = t.
Proof.
  intros A H C. unfold lex_string_char. rewrite (at_cur T st A), H. unfold hd0. cbn [nth].
  assert (Q : Ascii.eqb c "\" = false) by (now apply Ascii.eqb_neq). rewrite Q.
  destruct A as [[E N] | [_ N]]; [|congruence].
  pose proof (at_step T st E N) as S. destruct (refill (adv st 1)) as [more st'] eqn:F.
  destruct S as (S1 & S2 & _). exists st'. rewrite H in S2. auto.
Qed.
Lemma string_escape_step T st t : at_ T st -> R st = "\"%char :: t ->
  match t with
  | [] => lex_string_char st = Err PyException
  | e :: t' => exists st', lex_string_char st = Ok (escape_char e, st') /\ at_ T st' /\ R st' = t'
  end.
Proof.
  intros A H. unfold lex_string_char. rewrite (at_cur T st A), H. unfold hd0. cbn [nth].
  rewrite Ascii.eqb_refl.
  destruct A as [[E N] | [_ N]]; [|congruence].
  pose proof (exact_sees T st E N) as S.
  assert (S1 : sees (adv st 1)).
  { apply adv_sees; [assumption|now apply cur_len|]. intros j Hj. assert (j = 0) as -> by lia.
    rewrite H. discriminate. }
  destruct (adv_moved T st 1 E (cur_len _ N)) as [E1 R1]. rewrite H in R1. cbn [skipn] in R1.
  destruct t as [|e t'].
  - assert (C1 : l_cur (adv st 1) = []).
    { unfold R in R1. apply app_eq_nil in R1 as [C1 _]. exact C1. }
    apply end_of_buffer_spec in C1. now rewrite C1.
  - assert (C1 : l_cur (adv st 1) <> []).
    { intros C1. unfold R in R1. rewrite C1 in R1. cbn [app] in R1. unfold sees in S1.
      destruct S1 as [b Hb]; [congruence|]. rewrite C1 in Hb. destruct b; discriminate. }
    destruct (end_of_buffer (adv st 1)) eqn:EB; [now apply end_of_buffer_spec in EB|].
    rewrite (sees_cur _ S1), R1. unfold hd0. cbn [nth].
    pose proof (at_step T (adv st 1) E1 C1) as S2.
    destruct (refill (adv (adv st 1) 1)) as [more st'] eqn:F.
    destruct S2 as (S2 & S3 & _). exists st'. rewrite R1 in S3. auto.
Qed.

Lemma string_loop_pure T : forall fuel st acc, at_ T st -> length (R st) < fuel ->
  match str_body (R st) with
  | SDone s r => exists st', lex_string_loop fuel st acc = Ok (acc ++ s, st') /\ exact T st' /\ R st' = r
  | SOpen => True
  | SBad => lex_string_loop fuel st acc = Err PyException
  end.
Proof.
  induction fuel as [|f IH]; intros st acc A L; [lia|].
  destruct (R st) as [|c t] eqn:H; [exact I|].
  cbn [str_body lex_string_loop]. rewrite (at_cur T st A), H. unfold hd0. cbn [nth].
  destruct (Ascii.eqb c "'") eqn:Q.
  { destruct A as [[E N] | [_ N]]; [|congruence].
    destruct (adv_moved T st 1 E (cur_len _ N)) as [E1 R1]. exists (adv st 1).
    rewrite app_nil_r. rewrite H in R1. auto. }
  destruct (Ascii.eqb c "\") eqn:B.
  - apply Ascii.eqb_eq in B. subst c. pose proof (string_escape_step T st t A H) as S.
    destruct t as [|e t'].
    + rewrite S. reflexivity.
    + destruct S as (st' & S1 & S2 & S3). rewrite S1. cbn [bind fst snd].
      specialize (IH st' (acc ++ escape_char e) S2). rewrite S3 in IH. cbn [length] in L.
      specialize (IH ltac:(lia)). destruct (str_body t'); [|exact I|exact IH].
      now rewrite <- app_assoc in IH.
  - assert (C : c <> "\"%char) by (now apply Ascii.eqb_neq).
    destruct (string_char_step T st c t A H C) as (st' & S1 & S2 & S3). rewrite S1. cbn [bind fst snd].
    specialize (IH st' (acc ++ [c]) S2). rewrite S3 in IH. cbn [length] in L.
    specialize (IH ltac:(lia)). destruct (str_body t); [|exact I|exact IH].
    now rewrite <- app_assoc in IH.
Qed.

(** At the end of the input the loop goes on forever. *)
Lemma string_loop_eof : forall fuel st acc, l_cur st = [] -> rest (l_in st) = [] ->
  s_pos (l_in st) <= length (s_string (l_in st)) ->
  lex_string_loop fuel st acc = Err OutOfFuel.
Proof.
  induction fuel as [|f IH]; intros st acc C N P; [reflexivity|].
  cbn [lex_string_loop]. unfold lex_string_char, cur, bufchar. rewrite C. cbn [nth].
  change (Ascii.eqb nul "'") with false. change (Ascii.eqb nul "\") with false. cbv iota. cbn [bind fst snd].
  assert (EB : end_of_buffer (adv st 1) = true).
  { apply end_of_buffer_spec. cbn [adv l_cur]. rewrite C. reflexivity. }
  unfold refill. rewrite EB. unfold fill_buffer. cbn [adv l_in l_bufp l_len l_line l_chars].
  destruct (readline_spec (l_in st) P) as (A & B & D & E & F).
  rewrite N in A, B. cbn [split_line fst snd] in A, B.
  destruct (readline (l_in st)) as [buf s']. cbn [fst snd] in *. subst buf. cbn [snd].
  apply IH; [reflexivity|assumption|]. cbn [l_in]. rewrite D. exact F.
Qed.
Lemma string_loop_open T : forall fuel st acc, at_ T st -> str_body (R st) = SOpen ->
  lex_string_loop fuel st acc = Err OutOfFuel.
Proof.
  induction fuel as [|f IH]; intros st acc A L; [reflexivity|].
  destruct (R st) as [|c t] eqn:H.
  { destruct A as [[E N] | [E N]]; [now apply R_ne in N|].
    apply string_loop_eof; [apply (f_cur _ _ E)| |].
    - unfold R in H. apply app_eq_nil in H as [_ H]. exact H.
    - rewrite (f_str _ _ E), (f_pos _ _ E). lia. }
  cbn [str_body lex_string_loop] in *. rewrite (at_cur T st A), H. unfold hd0. cbn [nth].
  destruct (Ascii.eqb c "'") eqn:Q; [discriminate|].
  destruct (Ascii.eqb c "\") eqn:B.
  - apply Ascii.eqb_eq in B. subst c. pose proof (string_escape_step T st t A H) as S.
    destruct t as [|e t']; [discriminate|].
    destruct S as (st' & S1 & S2 & S3). rewrite S1. cbn [bind fst snd].
    apply IH; [assumption|]. rewrite S3. destruct (str_body t'); congruence.
  - assert (C : c <> "\"%char) by (now apply Ascii.eqb_neq).
    destruct (string_char_step T st c t A H C) as (st' & S1 & S2 & S3). rewrite S1. cbn [bind fst snd].
    apply IH; [assumption|]. rewrite S3. destruct (str_body t); congruence.
Qed.

(** ** The next token of a text *)
Inductive nres := NEnd | NTok (t : token) (r : text) | NBadChar (c : ascii) (r : text) | NOpen | NBadEsc.
Definition p_here (s : text) : nres :=
  match s with
  | [] => NEnd
  | c :: t =>
      if Ascii.eqb c "'" then
        match str_body t with SDone b r => NTok (STString, b) r | SOpen => NOpen | SBad => NBadEsc end
      else match p_token s with Some (t, r) => NTok t r | None => NBadChar c s end
  end.
Definition p_next (s : text) : nres := p_here (skip false s).

Definition next_ok (T : text) (q : nres) (r : res (token * lexer)) : Prop :=
  match q with
  | NEnd => exists st', r = Ok (end_token, st') /\ eof T st'
  | NTok t rst => exists st', r = Ok (t, st') /\ exact T st' /\ R st' = rst
  | NBadChar c rst => exists st', r = Ok ((NONE, [c]), st') /\ exact T st' /\ l_cur st' <> [] /\ R st' = rst
  | NOpen => r = Err OutOfFuel
  | NBadEsc => r = Err PyException
  end.

Lemma lex_here T fuel st : exact T st -> l_cur st <> [] -> length (R st) < fuel ->
  next_ok T (p_here (R st)) (lex_token fuel st).
Proof.
  intros E N L. pose proof (R_ne _ N) as RN.
  destruct (R st) as [|c t] eqn:H; [congruence|]. cbn [p_here].
  destruct (Ascii.eqb c "'") eqn:Q.
  - unfold lex_token. cbv zeta. rewrite (sees_cur st (exact_sees T st E N)), H. unfold hd0. cbn [nth].
    rewrite Q. unfold lex_string.
    destruct (adv_moved T st 1 E (cur_len _ N)) as [E1 R1]. rewrite H in R1. cbn [skipn] in R1.
    assert (RF : forall f acc, lex_string_loop f (adv st 1) acc = lex_string_loop f (adv st 1) acc) by reflexivity.
    (* the character after the quote is on the same line, or the text has ended *)
    assert (S1 : sees (adv st 1)).
    { apply adv_sees; [now apply (exact_sees T)|now apply cur_len|]. intros j Hj. assert (j = 0) as -> by lia.
      rewrite H. cbn [nth]. apply Ascii.eqb_eq in Q. subst c. discriminate. }
    destruct (l_cur (adv st 1)) as [|d b] eqn:C1.
    + assert (Z : rest (l_in (adv st 1)) = []).
      { destruct (rest (l_in (adv st 1))) eqn:Z; [reflexivity|]. destruct S1 as [b Hb]; [congruence|].
        rewrite C1 in Hb. destruct b; discriminate. }
      assert (t = []) as ->. { rewrite <- R1. unfold R. now rewrite C1, Z. }
      cbn [str_body next_ok]. rewrite string_loop_eof; [reflexivity|assumption|assumption|].
      rewrite (e_str _ _ E1). apply E1.
    + assert (A : at_ T (adv st 1)). { left. split; [assumption|]. rewrite C1. discriminate. }
      cbn [length] in L.
      pose proof (string_loop_pure T fuel (adv st 1) [] A ltac:(rewrite R1; lia)) as P.
      pose proof (string_loop_open T fuel (adv st 1) [] A) as P'.
      rewrite R1 in P, P'. destruct (str_body t) as [s r| |]; cbn [next_ok].
      * destruct P as (st' & -> & P2 & P3). cbn [bind fst snd app]. eauto.
      * now rewrite P'.
      * now rewrite P.
  - pose proof (lex_token_pure T fuel st E N) as P. rewrite H in P. unfold hd0 in P. cbn [nth] in P.
    assert (C : c <> "'"%char) by (now apply Ascii.eqb_neq). specialize (P C).
    destruct (p_token (c :: t)) as [[tk r]|]; cbn [next_ok].
    + exact P.
    + rewrite P. exists st. auto.
Qed.

Lemma next_token_pure T : forall fuel st, inv T st -> length (R st) + 1 < fuel ->
  next_ok T (p_next (R st)) (next_token fuel st).
Proof.
  induction fuel as [|f IH]; intros st Iv L; [lia|].
  cbn [next_token]. pose proof (refill_spec T st Iv) as F. destruct (refill st) as [more st0].
  destruct F as [F G]. destruct more; cbn [negb].
  2:{ destruct G as [G ->]. unfold p_next. cbn. eauto. }
  destruct G as [G N]. rewrite <- F in L |- *. clear Iv F st.
  destruct (skip_white_spec T (S f) st0) as (st1 & -> & A1 & R1); [left; auto|lia|].
  cbn [bind]. unfold skip_comment. rewrite (at_cur T st1 A1).
  unfold p_next. rewrite <- skip_drop_white, <- R1.
  destruct A1 as [[E1 N1] | [E1 N1]].
  - pose proof (R_ne _ N1) as NN. destruct (R st1) as [|c t] eqn:H; [congruence|]. unfold hd0. cbn [nth].
    assert (W : is_space c = false).
    { destruct (is_space c) eqn:W; [|reflexivity]. exfalso.
      assert (K : forall s x y, drop_white s = x :: y -> is_space x = false).
      { clear. induction s as [|a s IHs]; [discriminate|]. cbn. destruct (is_space a) eqn:Q; [apply IHs|].
        intros x y K. injection K as -> _. assumption. }
      rewrite (K _ _ _ (eq_sym R1)) in W. discriminate. }
    assert (Lt : length (c :: t) <= length (R st0)) by (rewrite R1; apply drop_white_len).
    cbn [skip]. rewrite W. destruct (Ascii.eqb c dquote) eqn:D.
    + destruct (comment_spec T (S f) st1 E1 N1) as (st2 & -> & I2 & R2); [rewrite H; lia|].
      cbn [bind]. rewrite H in R2. cbn [skipn] in R2. rewrite <- skip_drop_comment, <- R2.
      assert (L2 : length (R st2) + 1 < f).
      { rewrite R2. pose proof (drop_comment_len t). cbn [length] in Lt. lia. }
      destruct (end_of_buffer st2) eqn:EB; cbn [negb andb].
      { apply IH; [assumption|exact L2]. }
      assert (N2 : l_cur st2 <> []). { intros Q. apply end_of_buffer_spec in Q. congruence. }
      assert (E2 : exact T st2). { destruct I2 as [I2 | I2]; [assumption|]. now rewrite (f_cur _ _ I2) in N2. }
      destruct (is_space (cur st2)) eqn:W2; cbn [negb andb].
      { apply IH; [assumption|exact L2]. }
      destruct (Ascii.eqb (cur st2) dquote) eqn:D2; cbn [negb].
      { apply IH; [assumption|exact L2]. }
      rewrite (cur_R _ N2) in W2, D2. pose proof (lex_here T (S f) st2 E2 N2 ltac:(lia)) as K.
      destruct (R st2) as [|c2 t2] eqn:H2; [now apply R_ne in N2|]. unfold hd0 in W2, D2. cbn [nth] in W2, D2.
      cbn [skip]. rewrite W2, D2. exact K.
    + cbn [bind]. destruct (end_of_buffer st1) eqn:EB; [apply end_of_buffer_spec in EB; congruence|].
      cbn [negb andb]. rewrite (cur_R _ N1), H. unfold hd0. cbn [nth]. rewrite W, D. cbn [negb andb].
      rewrite <- H. apply lex_here; [assumption|assumption|]. rewrite H. lia.
  - rewrite N1. unfold hd0. cbn [nth]. change (Ascii.eqb nul dquote) with false. cbv iota. cbn [bind].
    assert (EB : end_of_buffer st1 = true) by (apply end_of_buffer_spec; apply E1).
    rewrite EB. cbn [negb andb]. cbn [skip].
    assert (N0 : R st0 <> []) by (now apply R_ne).
    assert (L0 : 0 < length (R st0)) by (destruct (R st0); [congruence|cbn; lia]).
    pose proof (IH st1 (or_intror E1)) as K. rewrite N1 in K. cbn [length] in K. apply K. lia.
Qed.

(** More fuel never changes an answer. *)
Definition fuel_le {A} (r r' : res A) : Prop := r = Err OutOfFuel \/ r = r'.
Lemma fuel_le_refl {A} (r : res A) : fuel_le r r. Proof. now right. Qed.
Lemma skip_white_mono : forall f f' st, f <= f' -> fuel_le (skip_white_space f st) (skip_white_space f' st).
Proof.
  induction f as [|f IH]; intros f' st L; [now left|]. destruct f' as [|f']; [lia|].
  cbn [skip_white_space]. destruct (is_space (cur st)); [|now right].
  destruct (refill (adv st 1)) as [[] st']; [apply IH; lia|now right].
Qed.
Lemma comment_mono : forall f f' st, f <= f' -> fuel_le (comment_loop f st) (comment_loop f' st).
Proof.
  induction f as [|f IH]; intros f' st L; [now left|]. destruct f' as [|f']; [lia|].
  cbn [comment_loop]. destruct (refill (adv st 1)) as [[] st']; [|now right].
  destruct (Ascii.eqb (cur st') dquote); [now right|]. apply IH; lia.
Qed.
Lemma string_loop_mono : forall f f' st acc, f <= f' ->
  fuel_le (lex_string_loop f st acc) (lex_string_loop f' st acc).
Proof.
  induction f as [|f IH]; intros f' st acc L; [now left|]. destruct f' as [|f']; [lia|].
  cbn [lex_string_loop]. destruct (Ascii.eqb (cur st) "'"); [now right|].
  destruct (lex_string_char st) as [r|e]; cbn [bind]; [apply IH; lia|now right].
Qed.
Lemma bind_mono {A B} (r r' : res A) (k k' : A -> res B) :
  fuel_le r r' -> (forall a, fuel_le (k a) (k' a)) -> fuel_le (bind r k) (bind r' k').
Proof.
  intros [-> | ->] H; [now left|]. destruct r' as [a|e]; cbn [bind]; [apply H|now right].
Qed.
Lemma lex_token_mono f f' st : f <= f' -> fuel_le (lex_token f st) (lex_token f' st).
Proof.
  intros L. unfold lex_token. cbv zeta. destruct (Ascii.eqb (cur st) "'"); [|now right].
  unfold lex_string. apply bind_mono; [now apply string_loop_mono|]. intros a. now right.
Qed.
Lemma next_token_mono : forall f f' st, f <= f' -> fuel_le (next_token f st) (next_token f' st).
Proof.
  induction f as [|f IH]; intros f' st L; [now left|]. destruct f' as [|f']; [lia|].
  cbn [next_token]. destruct (refill st) as [[] st0]; cbn [negb]; [|now right].
  apply bind_mono; [apply skip_white_mono; lia|]. intros st1.
  apply bind_mono.
  { unfold skip_comment. destruct (Ascii.eqb (cur st1) dquote); [apply comment_mono; lia|now right]. }
  intros st2.
  destruct (negb (end_of_buffer st2) && negb (is_space (cur st2)) && negb (Ascii.eqb (cur st2) dquote));
    [apply lex_token_mono; lia|apply IH; lia].
Qed.
Lemma next_token_open T fuel st : inv T st -> p_next (R st) = NOpen -> next_token fuel st = Err OutOfFuel.
Proof.
  intros Iv H. pose proof (next_token_pure T (fuel + length (R st) + 2) st Iv ltac:(lia)) as P.
  rewrite H in P. cbn [next_ok] in P.
  destruct (next_token_mono fuel (fuel + length (R st) + 2) st ltac:(lia)) as [K | K]; [assumption|].
  now rewrite K.
Qed.

(** * The grammar *)
(** ** Character facts, checked for all 256 characters *)
Definition all_chars_ : list ascii := map ascii_of_nat (seq 0 256).
Lemma all_ascii (P : ascii -> bool) : forallb P all_chars_ = true -> forall c, P c = true.
Proof.
  intros H c. rewrite forallb_forall in H. apply H. unfold all_chars_. apply in_map_iff.
  exists (nat_of_ascii c). split; [apply ascii_nat_embedding|]. apply in_seq.
  pose proof (nat_ascii_bounded c). lia.
Qed.
Lemma in_range_iff c lo hi : in_range c lo hi = true <-> lo <= code c <= hi.
Proof. unfold in_range, code. rewrite andb_true_iff, !Nat.leb_le. tauto. Qed.
Lemma is_space_iff c : is_space c = true <-> white c.
Proof. unfold is_space, white. rewrite orb_true_iff, !in_range_iff. lia. Qed.
Lemma is_alpha_iff c : is_alpha c = true <-> letter c.
Proof. unfold is_alpha, letter. rewrite orb_true_iff, !in_range_iff. lia. Qed.
Lemma is_digit_iff c : is_digit c = true <-> digit c.
Proof. apply in_range_iff. Qed.
Lemma is_word_iff c : is_word c = true <-> word_char c.
Proof.
  unfold is_word, is_alnum, word_char. rewrite !orb_true_iff, is_alpha_iff, is_digit_iff, Ascii.eqb_eq. tauto.
Qed.
Lemma is_key_iff c : is_key c = true <-> letter c \/ c = ":"%char.
Proof. unfold is_key. rewrite orb_true_iff, is_alpha_iff, Ascii.eqb_eq. tauto. Qed.
Lemma is_alnum_iff c : is_alnum c = true <-> letter c \/ digit c.
Proof. unfold is_alnum. rewrite orb_true_iff, is_alpha_iff, is_digit_iff. tauto. Qed.
Lemma is_operator_sym c : is_operator c = true -> In (c, operator_sym c) operators.
Proof.
  unfold is_operator. rewrite !orb_true_iff, !Ascii.eqb_eq.
  intros H. repeat (destruct H as [H | H]); subst c; vm_compute; tauto.
Qed.
Lemma op_sym_of c k : In (c, k) operators -> is_operator c = true /\ operator_sym c = k.
Proof.
  unfold operators. cbn [In]. intros H.
  repeat (destruct H as [H | H]; [injection H as <- <-; split; reflexivity|]). contradiction.
Qed.
Lemma is_operator_iff c : is_operator c = true <-> op_char c.
Proof.
  split.
  - intros H. exists (operator_sym c). now apply is_operator_sym.
  - intros [k H]. now apply op_sym_of in H.
Qed.
Definition special (c : ascii) : bool :=
  (Ascii.eqb c "[" || Ascii.eqb c "]" || Ascii.eqb c ":" || Ascii.eqb c "(" || Ascii.eqb c ")"
   || Ascii.eqb c "#" || Ascii.eqb c "^" || Ascii.eqb c ".")%char.
(** The kinds of first characters exclude each other. *)
Lemma kinds c :
  (implb (is_alpha c) (negb (special c) && negb (is_operator c) && negb (is_digit c)
     && negb (Ascii.eqb c "'") && negb (is_space c) && negb (Ascii.eqb c dquote)) &&
   implb (is_digit c) (negb (special c) && negb (is_operator c)
     && negb (Ascii.eqb c "'") && negb (is_space c) && negb (Ascii.eqb c dquote) && negb (Ascii.eqb c "p")) &&
   implb (is_operator c) (negb (special c)
     && negb (Ascii.eqb c "'") && negb (is_space c) && negb (Ascii.eqb c dquote)) &&
   implb (special c) (negb (Ascii.eqb c "'") && negb (is_space c) && negb (Ascii.eqb c dquote)))%char = true.
Proof. revert c. apply all_ascii. vm_compute. reflexivity. Qed.
Ltac kinds c :=
  let K := fresh "K" in pose proof (kinds c) as K;
  repeat match goal with H : is_alpha c = true |- _ => rewrite H in K; revert H
                       | H : is_digit c = true |- _ => rewrite H in K; revert H
                       | H : is_operator c = true |- _ => rewrite H in K; revert H
                       | H : special c = true |- _ => rewrite H in K; revert H end; intros;
  rewrite ?andb_true_iff in K; cbn [implb negb] in K; rewrite ?andb_true_iff, ?negb_true_iff in K.

Lemma special_false c : special c = false ->
  (Ascii.eqb c "[" = false /\ Ascii.eqb c "]" = false /\ Ascii.eqb c ":" = false /\ Ascii.eqb c "(" = false
   /\ Ascii.eqb c ")" = false /\ Ascii.eqb c "#" = false /\ Ascii.eqb c "^" = false /\ Ascii.eqb c "." = false)%char.
Proof. unfold special. rewrite !orb_false_iff. tauto. Qed.

Definition prim_here (s : text) : bool :=
  starts_with PRIMITIVE s && negb (is_alnum (nth (length PRIMITIVE) s nul)).
Lemma p_token_plain s : special (hd0 s) = false -> is_operator (hd0 s) = false ->
  p_token s =
    if prim_here s then Some ((Primitive, PRIMITIVE), skipn (length PRIMITIVE) s)
    else if is_alpha (hd0 s) then Some (p_word s)
    else if is_digit (hd0 s) then Some (p_number s) else None.
Proof.
  intros S O. unfold p_token. cbv zeta. apply special_false in S as (-> & -> & -> & -> & -> & -> & -> & ->).
  destruct (Ascii.eqb (hd0 s) "-") eqn:D.
  { apply Ascii.eqb_eq in D. rewrite D in O. discriminate. }
  rewrite O. reflexivity.
Qed.
Lemma p_token_alpha s : is_alpha (hd0 s) = true ->
  p_token s = if prim_here s then Some ((Primitive, PRIMITIVE), skipn (length PRIMITIVE) s)
              else Some (p_word s).
Proof. intros H. kinds (hd0 s). rewrite p_token_plain by tauto. now rewrite H. Qed.
Lemma p_token_digit s : is_digit (hd0 s) = true -> p_token s = Some (p_number s).
Proof.
  intros H. kinds (hd0 s). rewrite p_token_plain by tauto. rewrite H.
  assert (A : is_alpha (hd0 s) = false).
  { destruct (is_alpha (hd0 s)) eqn:A; [|reflexivity]. cbn [implb] in K. rewrite ?andb_true_iff, ?negb_true_iff in K.
    destruct K as [[[K _] _] _]. tauto || (rewrite ?andb_true_iff, ?negb_true_iff in K; intuition congruence). }
  rewrite A. unfold prim_here. destruct s as [|c t]; [discriminate|]. unfold hd0 in *. cbn [nth] in *.
  cbn [PRIMITIVE list_ascii_of_string starts_with].
  change (starts_with PRIMITIVE (c :: t)) with (Ascii.eqb "p" c && starts_with (tl PRIMITIVE) t).
  rewrite Ascii.eqb_sym. destruct K as [[[_ K] _] _].
  assert (E : Ascii.eqb c "p" = false) by tauto. rewrite E. reflexivity.
Qed.
Lemma p_token_op s : is_operator (hd0 s) = true ->
  p_token s = if Ascii.eqb (hd0 s) "-" && starts_with SEPARATOR s
              then Some ((Separator, scan (Ascii.eqb "-") s), skipn (length (scan (Ascii.eqb "-") s)) s)
              else Some (p_operator s).
Proof.
  intros H. kinds (hd0 s). unfold p_token. cbv zeta.
  assert (S : special (hd0 s) = false) by tauto.
  apply special_false in S as (-> & -> & -> & -> & -> & -> & -> & ->).
  destruct (Ascii.eqb (hd0 s) "-"); cbn [andb]; [destruct (starts_with SEPARATOR s); reflexivity|].
  now rewrite H.
Qed.

(** ** Scans *)
Lemma scan_stop p w s : Forall (fun c => p c = true) w ->
  match s with [] => True | c :: _ => p c = false end -> scan p (w ++ s) = w.
Proof.
  intros F H. induction F as [|c w Hc F IH]; cbn.
  - destruct s as [|c t]; [reflexivity|]. cbn. now rewrite H.
  - rewrite Hc. now f_equal.
Qed.
Lemma not_next_scan (p : ascii -> bool) (P : ascii -> Prop) s :
  (forall c, p c = true <-> P c) -> not_next P s ->
  match s with [] => True | c :: _ => p c = false end.
Proof.
  intros H N. destruct s as [|c t]; [exact I|]. cbn in N. destruct (p c) eqn:E; [|reflexivity].
  exfalso. apply N. now apply H.
Qed.
Lemma scan_not_next (p : ascii -> bool) (P : ascii -> Prop) s :
  (forall c, p c = true <-> P c) -> match s with [] => True | c :: _ => p c = false end -> not_next P s.
Proof. intros H N. destruct s as [|c t]; [exact I|]. cbn. rewrite <- H. congruence. Qed.
Lemma Forall_iff {A} (P Q : A -> Prop) l : (forall c, P c <-> Q c) -> Forall P l -> Forall Q l.
Proof. intros H. apply Forall_impl. intros a. apply H. Qed.
Lemma skipn_app_exact {A} (l m : list A) : skipn (length l) (l ++ m) = m.
Proof. rewrite skipn_app, skipn_all, Nat.sub_diag. reflexivity. Qed.

(** ** Separators *)
Lemma skip_app_white c s : white c -> skip false (c :: s) = skip false s.
Proof. intros H. cbn. apply is_space_iff in H. now rewrite H. Qed.
Lemma quote2_not_white : is_space quote2 = false. Proof. reflexivity. Qed.
Lemma skip_true_close body s : ~ In quote2 body -> skip true (body ++ quote2 :: s) = skip false s.
Proof.
  intros H. induction body as [|c b IH].
  - cbn [app skip]. change (Ascii.eqb quote2 dquote) with true. reflexivity.
  - cbn [app skip]. destruct (Ascii.eqb c dquote) eqn:E.
    + apply Ascii.eqb_eq in E. exfalso. apply H. left. now rewrite E.
    + cbn [negb]. apply IH. intros Q. apply H. now right.
Qed.
Lemma skip_true_open body : ~ In quote2 body -> skip true body = [].
Proof.
  intros H. induction body as [|c b IH]; [reflexivity|]. cbn [skip].
  destruct (Ascii.eqb c dquote) eqn:E.
  - apply Ascii.eqb_eq in E. exfalso. apply H. left. now rewrite E.
  - cbn [negb]. apply IH. intros Q. apply H. now right.
Qed.
Lemma skip_gap g s : gap g -> skip false (g ++ s) = skip false s.
Proof.
  induction 1 as [|c g W G IH|body g N G IH]; [reflexivity| |].
  - cbn [app]. now rewrite skip_app_white.
  - cbn [app skip]. rewrite quote2_not_white. change (Ascii.eqb quote2 dquote) with true. cbv iota.
    rewrite <- app_assoc. cbn [app]. now rewrite skip_true_close.
Qed.
Lemma skip_tail_gap g : tail_gap g -> skip false g = [].
Proof.
  intros [g' G | g' body G N].
  - rewrite <- (app_nil_r g'). now rewrite skip_gap.
  - rewrite skip_gap by assumption. cbn [skip]. rewrite quote2_not_white.
    change (Ascii.eqb quote2 dquote) with true. cbv iota. now apply skip_true_open.
Qed.
Lemma skip_inv : forall s,
  (exists g, gap g /\ s = g ++ skip false s) \/ (skip false s = [] /\ tail_gap s).
Proof.
  intros s. remember (length s) as n eqn:E. assert (H : length s <= n) by lia. clear E.
  revert s H. induction n as [|n IH]; intros [|c t] L.
  1,3: left; exists []; split; [constructor|reflexivity].
  { cbn in L. lia. }
  cbn [length] in L. cbn [skip]. destruct (is_space c) eqn:W.
  { apply is_space_iff in W. destruct (IH t ltac:(lia)) as [(g & G & Q) | (Q & G)].
    - left. exists (c :: g). split; [now constructor|]. cbn [app]. now f_equal.
    - right. split; [assumption|]. destruct G as [g G | g body G N].
      + constructor. now constructor.
      + apply (tg_open (c :: g)); [now constructor|assumption]. }
  destruct (Ascii.eqb c dquote) eqn:D.
  2:{ left. exists []. split; [constructor|reflexivity]. }
  apply Ascii.eqb_eq in D. subst c.
  assert (K : forall u, (exists body r, ~ In quote2 body /\ u = body ++ quote2 :: r) \/ ~ In quote2 u).
  { clear. induction u as [|a u IHu]; [right; auto|].
    destruct (ascii_dec a quote2) as [-> | N].
    - left. exists [], u. auto.
    - destruct IHu as [(b & r & B & ->) | B].
      + left. exists (a :: b), r. split; [|reflexivity]. intros [Q | Q]; [congruence|auto].
      + right. intros [Q | Q]; [congruence|auto]. }
  destruct (K t) as [(body & r & B & ->) | B].
  - rewrite skip_true_close by assumption. rewrite app_length in L. cbn [length] in L.
    destruct (IH r ltac:(lia)) as [(g & G & Q) | (Q & G)].
    + left. exists (quote2 :: body ++ quote2 :: g). split; [now constructor|].
      cbn [app]. f_equal. rewrite <- app_assoc. cbn [app]. do 2 f_equal. exact Q.
    + right. split; [assumption|]. destruct G as [g G | g body' G N].
      * constructor. now constructor.
      * replace (dquote :: body ++ quote2 :: g ++ quote2 :: body')
          with ((quote2 :: body ++ quote2 :: g) ++ quote2 :: body').
        { apply tg_open; [now constructor|assumption]. }
        cbn [app]. rewrite <- app_assoc. reflexivity.
  - right. split; [now apply skip_true_open|]. apply (tg_open []); [constructor|assumption].
Qed.
Lemma skip_head s c t : skip false s = c :: t -> is_space c = false /\ Ascii.eqb c dquote = false.
Proof.
  assert (K : forall s b, skip b s = c :: t -> is_space c = false /\ Ascii.eqb c dquote = false).
  { clear s. induction s as [|a s IH]; intros b; [discriminate|]. cbn [skip]. destruct b; [apply IH|].
    destruct (is_space a) eqn:W; [apply IH|]. destruct (Ascii.eqb a dquote) eqn:D; [apply IH|].
    intros Q. injection Q as -> _. auto. }
  apply K.
Qed.

(** ** Strings *)
Lemma escape_known e c : In (e, c) escapes -> escape_char e = [c].
Proof.
  unfold escapes. cbn [In]. intros H.
  repeat (destruct H as [H | H]; [injection H as <- <-; reflexivity|]). contradiction.
Qed.
Lemma escape_cases e : (exists c, In (e, c) escapes /\ escape_char e = [c]) \/
  ((forall c, ~ In (e, c) escapes) /\ escape_char e = []).
Proof.
  unfold escape_char.
  repeat match goal with |- context [Ascii.eqb e ?x] => destruct (Ascii.eqb e x) eqn:?;
    [match goal with H : Ascii.eqb e x = true |- _ => apply Ascii.eqb_eq in H; subst e end;
     left; eexists; split; [|reflexivity]; unfold escapes; cbn [In]; vm_compute; tauto|] end.
  right. split; [|reflexivity]. intros c H. unfold escapes in H. cbn [In] in H.
  repeat match goal with H : _ \/ _ |- _ => destruct H as [H | H]; [injection H as <- _;
    match goal with Q : Ascii.eqb ?a ?a = false |- _ => rewrite Ascii.eqb_refl in Q; discriminate end|] end.
  contradiction.
Qed.
Lemma str_body_ok raw s r : denotes raw s -> str_body (raw ++ chars "'" ++ r) = SDone s r.
Proof.
  induction 1 as [|c raw s N1 N2 D IH|e c raw s E D IH|e raw s E D IH].
  - reflexivity.
  - cbn [app str_body]. apply Ascii.eqb_neq in N1. apply Ascii.eqb_neq in N2. now rewrite N1, N2, IH.
  - cbn [app str_body]. change (Ascii.eqb "\" "'") with false. cbv iota. rewrite Ascii.eqb_refl, IH.
    now rewrite (escape_known e c E).
  - cbn [app str_body]. change (Ascii.eqb "\" "'") with false. cbv iota. rewrite Ascii.eqb_refl, IH.
    destruct (escape_cases e) as [(c & Q & _) | (_ & ->)]; [now apply E in Q|reflexivity].
Qed.
Lemma str_body_inv : forall u,
  match str_body u with
  | SDone s r => exists raw, u = raw ++ chars "'" ++ r /\ denotes raw s
  | SOpen => unclosed u
  | SBad => half_escape u
  end.
Proof.
  intros u. remember (length u) as n eqn:E. assert (H : length u <= n) by lia. clear E.
  revert u H. induction n as [|n IH]; intros [|c t] L; try (cbn; constructor); [cbn in L; lia|].
  cbn [length] in L. cbn [str_body]. destruct (Ascii.eqb c "'") eqn:Q.
  { apply Ascii.eqb_eq in Q. subst c. exists []. split; [reflexivity|constructor]. }
  destruct (Ascii.eqb c "\") eqn:B.
  - apply Ascii.eqb_eq in B. subst c. destruct t as [|e t']; [constructor|]. cbn [length] in L.
    specialize (IH t' ltac:(lia)). destruct (str_body t') as [s r| |].
    + destruct IH as (raw & -> & D). exists ("\"%char :: e :: raw). split; [reflexivity|].
      destruct (escape_cases e) as [(c & Q1 & ->) | (Q1 & ->)]; now constructor.
    + now constructor.
    + now constructor.
  - apply Ascii.eqb_neq in Q, B. specialize (IH t ltac:(lia)). destruct (str_body t) as [s r| |].
    + destruct IH as (raw & -> & D). exists (c :: raw). split; [reflexivity|]. now constructor.
    + now constructor.
    + now constructor.
Qed.

(** ** Words *)
Lemma word_scan w s : word w -> not_next word_char s -> scan is_word (w ++ s) = w /\ is_alpha (hd0 (w ++ s)) = true.
Proof.
  intros (a & t & -> & A & F) N. split.
  - apply scan_stop; [|apply (not_next_scan _ word_char); [apply is_word_iff|assumption]].
    constructor; [apply is_word_iff; now left|]. apply (Forall_iff word_char); [|assumption].
    intros c. symmetry. apply is_word_iff.
  - unfold hd0. cbn. now apply is_alpha_iff.
Qed.
Lemma word_not_prim w s : word w -> ~ reserved w -> not_next word_char s -> prim_here (w ++ s) = false.
Proof.
  intros W N S. unfold prim_here. destruct (starts_with PRIMITIVE (w ++ s)) eqn:P; [|reflexivity].
  apply starts_with_app in P as [r P]. cbn [andb].
  destruct (word_scan w s W S) as [Sc _].
  assert (Q : w = PRIMITIVE ++ scan is_word r).
  { rewrite <- Sc, P. cbn. reflexivity. }
  destruct (scan is_word r) as [|c q] eqn:E.
  { exfalso. apply N. exists []. split; [exact Q|]. now left. }
  assert (Hr : exists r', r = c :: r' /\ is_word c = true).
  { destruct r as [|d r']; [discriminate|]. cbn in E. destruct (is_word d) eqn:D; [|discriminate].
    injection E as -> _. eauto. }
  destruct Hr as (r' & -> & Wc). rewrite P. rewrite app_nth2, Nat.sub_diag by lia. cbn [nth].
  unfold is_word in Wc. apply orb_true_iff in Wc as [-> | Wc]; [reflexivity|].
  exfalso. apply N. exists (c :: q). split; [exact Q|]. right. apply Ascii.eqb_eq in Wc. subst c. eauto.
Qed.
Lemma word_of_scan s : is_alpha (hd0 s) = true -> word (scan is_word s).
Proof.
  intros H. destruct s as [|c t]; [discriminate|]. unfold hd0 in H. cbn [nth] in H.
  assert (Wc : is_word c = true). { unfold is_word, is_alnum. now rewrite H. }
  cbn [scan]. rewrite Wc. exists c, (scan is_word t). split; [reflexivity|].
  split; [now apply is_alpha_iff|].
  destruct (scan_prefix is_word t) as (r & _ & _ & F). apply (Forall_iff (fun c => is_word c = true)); [|assumption].
  intros x. apply is_word_iff.
Qed.
Lemma not_prim_not_reserved s : prim_here s = false -> ~ reserved (scan is_word s).
Proof.
  intros P (q & Q & H). destruct (scan_prefix is_word s) as (r & A & B & _).
  unfold prim_here in P. rewrite A, Q in P. rewrite <- app_assoc in P.
  assert (St : starts_with PRIMITIVE (chars "primitive" ++ q ++ r) = true) by (apply starts_with_iff; eauto).
  rewrite St in P. cbn [andb] in P. change (chars "primitive") with PRIMITIVE in P.
  rewrite app_nth2, Nat.sub_diag in P by lia.
  destruct H as [-> | (q' & ->)].
  - cbn [app] in P. destruct r as [|c r']; [discriminate|]. cbn [nth] in P.
    unfold is_word in B. apply orb_false_iff in B as [B _]. now rewrite B in P.
  - cbn in P. discriminate.
Qed.

Lemma Forall_eqb_dash t : Forall dash t -> Forall (fun c => Ascii.eqb "-" c = true) t.
Proof. apply Forall_impl. intros c ->. reflexivity. Qed.

(** ** Every spelling is lexed as its token *)
Lemma hd0_app c t s : hd0 ((c :: t) ++ s) = c. Proof. reflexivity. Qed.
Lemma here_token s t r : hd0 s <> "'"%char -> s <> [] -> p_token s = Some (t, r) -> p_here s = NTok t r.
Proof.
  intros H N P. destruct s as [|c u]; [congruence|]. unfold p_here.
  assert (Q : Ascii.eqb c "'" = false) by (now apply Ascii.eqb_neq). now rewrite Q, P.
Qed.
Lemma alpha_here s : is_alpha (hd0 s) = true -> hd0 s <> "'"%char /\ s <> [].
Proof.
  intros H. split.
  - intros Q. rewrite Q in H. discriminate.
  - intros ->. discriminate.
Qed.
Lemma spells_here t raw s : spells t raw -> ends_before t s -> p_here (raw ++ s) = NTok t s.
Proof.
  intros Sp En. inversion Sp; subst; clear Sp.
  - (* punctuation *)
    unfold punctuation in H. cbn [In] in H.
    repeat (destruct H as [H | H]; [injection H as <- <-; try reflexivity|]); [|contradiction].
    cbn [app]. unfold p_here. change (Ascii.eqb ":" "'") with false. cbv iota. unfold p_token, hd0. cbn [nth].
    cbn in En. destruct s as [|d s']; [reflexivity|]. cbn [nth].
    assert (Q : Ascii.eqb d "=" = false) by (apply Ascii.eqb_neq; exact En).
    change (Ascii.eqb ":" "[") with false. change (Ascii.eqb ":" "]") with false.
    change (Ascii.eqb ":" ":") with true. cbv iota zeta. now rewrite Q.
  - reflexivity.
  - (* one operator *)
    destruct (op_sym_of _ _ H) as [O <-].
    assert (En' : not_next op_char s).
    { destruct (op_sym_of _ _ H) as [_ K]. unfold operators in H. cbn [In] in H.
      repeat (destruct H as [H | H]; [injection H as <- H; rewrite <- H in En; exact En|]). contradiction. }
    apply (not_next_scan is_operator) in En'; [|apply is_operator_iff].
    kinds c. apply here_token; [|discriminate|].
    { intros Q. cbn in Q. subst c. discriminate. }
    rewrite p_token_op by exact O. cbn [app]. unfold hd0. cbn [nth].
    assert (Z : Ascii.eqb c "-" && starts_with SEPARATOR (c :: s) = false).
    { destruct (Ascii.eqb c "-") eqn:D; [|reflexivity]. cbn [andb].
      change (starts_with SEPARATOR (c :: s)) with (Ascii.eqb "-" c && starts_with (tl SEPARATOR) s).
      apply Ascii.eqb_eq in D. subst c. destruct s as [|d s']; [reflexivity|].
      change (starts_with (tl SEPARATOR) (d :: s')) with (Ascii.eqb "-" d && starts_with (tl (tl SEPARATOR)) s').
      destruct (Ascii.eqb "-" d) eqn:D; [|reflexivity]. apply Ascii.eqb_eq in D. subst d. discriminate. }
    rewrite Z. unfold p_operator. cbn [nth].
    assert (Z' : is_operator (nth 0 s nul) = false) by (destruct s; [reflexivity|exact En']).
    rewrite Z'. reflexivity.
  - (* several operators *)
    rename raw into w. unfold ends_before in En. cbn [fst] in En.
    apply (not_next_scan is_operator) in En; [|apply is_operator_iff].
    destruct w as [|a [|b w']]; [cbn in H; lia|cbn in H; lia|].
    assert (F : Forall (fun c => is_operator c = true) (a :: b :: w')).
    { apply (Forall_iff op_char); [|assumption]. intros c. symmetry. apply is_operator_iff. }
    assert (Oa : is_operator a = true) by (now inversion F).
    assert (Ob : is_operator b = true) by (inversion F as [|x y Hx Hy]; now inversion Hy).
    apply here_token; [|discriminate|].
    { rewrite hd0_app. intros ->. discriminate. }
    rewrite p_token_op by exact Oa.
    assert (Z : Ascii.eqb (hd0 ((a :: b :: w') ++ s)) "-" && starts_with SEPARATOR ((a :: b :: w') ++ s) = false).
    { apply andb_false_intro2. destruct (starts_with SEPARATOR ((a :: b :: w') ++ s)) eqn:St; [|reflexivity].
      exfalso. apply starts_with_app in St as [r St].
      assert (Q : a :: b :: w' = SEPARATOR ++ scan is_operator r).
      { rewrite <- (scan_stop is_operator _ s F En), St. reflexivity. }
      exact (H1 _ Q). }
    rewrite Z. unfold p_operator. change (nth 1 ((a :: b :: w') ++ s) nul) with b. rewrite Ob. cbv zeta.
    rewrite (scan_stop is_operator _ s F En), skipn_app_exact. reflexivity.
  - (* separator *)
    rename raw into w. unfold ends_before in En. cbn [fst] in En.
    apply (not_next_scan (Ascii.eqb "-")) in En.
    2:{ intros c. rewrite Ascii.eqb_eq. unfold dash. split; congruence. }
    pose proof (Forall_eqb_dash _ H0) as F.
    destruct w as [|a [|b [|c [|d w']]]]; [cbn in H; lia|cbn in H; lia|cbn in H; lia|cbn in H; lia|].
    pose proof (Forall_inv H0) as Ea. apply Forall_inv_tail in H0.
    pose proof (Forall_inv H0) as Eb. apply Forall_inv_tail in H0.
    pose proof (Forall_inv H0) as Ec. apply Forall_inv_tail in H0.
    pose proof (Forall_inv H0) as Ed. unfold dash in Ea, Eb, Ec, Ed. subst a b c d.
    apply here_token; [discriminate|discriminate|].
    rewrite p_token_op by reflexivity.
    change (Ascii.eqb (hd0 (("-" :: "-" :: "-" :: "-" :: w')%char ++ s)) "-" &&
            starts_with SEPARATOR (("-" :: "-" :: "-" :: "-" :: w')%char ++ s)) with true. cbv iota.
    rewrite (scan_stop _ _ s F En), skipn_app_exact. reflexivity.
  - (* primitive *)
    unfold ends_before in En. cbn [fst] in En. apply here_token; [discriminate|discriminate|].
    rewrite p_token_alpha by reflexivity. unfold prim_here.
    assert (St : starts_with PRIMITIVE (chars "primitive" ++ s) = true) by (apply starts_with_iff; eauto).
    rewrite St. cbn [andb]. change (chars "primitive") with PRIMITIVE.
    rewrite app_nth2, Nat.sub_diag by lia.
    assert (Z : is_alnum (nth 0 s nul) = false).
    { destruct s as [|c s']; [reflexivity|]. cbn [nth]. cbn in En. destruct (is_alnum c) eqn:Q; [|reflexivity].
      exfalso. apply En. now apply is_alnum_iff. }
    rewrite Z. cbn [negb]. rewrite skipn_app_exact. reflexivity.
  - (* identifier *)
    rename raw into w. unfold ends_before in En. cbn [fst] in En.
    assert (En1 : not_next word_char s) by (destruct s; [exact I|cbn in *; tauto]).
    destruct (word_scan w s H En1) as [Sc Al]. destruct (alpha_here _ Al) as [A1 A2].
    apply here_token; [assumption|assumption|].
    rewrite p_token_alpha by exact Al. rewrite (word_not_prim w s H H0 En1). f_equal.
    unfold p_word. cbv zeta. rewrite Sc, skipn_app_exact.
    assert (Z : Ascii.eqb (hd0 s) ":" = false).
    { destruct s as [|c s']; [reflexivity|]. unfold hd0. cbn in *. apply Ascii.eqb_neq. tauto. }
    now rewrite Z.
  - (* keyword *)
    unfold ends_before in En. cbn [fst] in En.
    assert (En1 : not_next word_char (chars ":" ++ s)).
    { intros Q. apply is_word_iff in Q. discriminate. }
    rewrite <- app_assoc. destruct (word_scan w _ H En1) as [Sc Al]. destruct (alpha_here _ Al) as [A1 A2].
    apply here_token; [assumption|assumption|].
    rewrite p_token_alpha by exact Al. rewrite (word_not_prim w _ H H0 En1). f_equal.
    unfold p_word. cbv zeta. rewrite Sc, skipn_app_exact.
    change (hd0 (chars ":" ++ s)) with ":"%char. rewrite Ascii.eqb_refl.
    change (skipn 1 (chars ":" ++ s)) with s.
    assert (Z : is_alpha (hd0 s) = false).
    { destruct s as [|c s']; [reflexivity|]. unfold hd0. cbn [nth]. cbn in En. destruct (is_alpha c) eqn:Q; [|reflexivity].
      exfalso. apply En. now apply is_alpha_iff. }
    now rewrite Z.
  - (* keywords *)
    unfold ends_before in En. cbn [fst] in En.
    apply (not_next_scan is_key) in En; [|apply is_key_iff].
    assert (En1 : not_next word_char (chars ":" ++ (a :: k) ++ s)).
    { intros Q. apply is_word_iff in Q. discriminate. }
    rewrite <- app_assoc. rewrite <- (app_assoc (chars ":")).
    destruct (word_scan w _ H En1) as [Sc Al]. destruct (alpha_here _ Al) as [A1 A2].
    apply here_token; [assumption|assumption|].
    rewrite p_token_alpha by exact Al. rewrite (word_not_prim w _ H H0 En1). f_equal.
    unfold p_word. cbv zeta. rewrite Sc, skipn_app_exact.
    change (hd0 (chars ":" ++ (a :: k) ++ s)) with ":"%char. rewrite Ascii.eqb_refl.
    change (skipn 1 (chars ":" ++ (a :: k) ++ s)) with ((a :: k) ++ s).
    rewrite hd0_app. assert (Z : is_alpha a = true) by (now apply is_alpha_iff). rewrite Z.
    assert (F : Forall (fun c => is_key c = true) (a :: k)).
    { constructor; [apply is_key_iff; now left|]. apply (Forall_iff (fun c => letter c \/ c = ":"%char)); [|assumption].
      intros c. symmetry. apply is_key_iff. }
    rewrite (scan_stop is_key _ s F En), skipn_app_exact. reflexivity.
  - (* integer *)
    rename raw into d. unfold ends_before in En. cbn [fst] in En. destruct En as [En1 En2].
    destruct H as [Hn Hd]. apply (not_next_scan is_digit) in En1; [|apply is_digit_iff].
    assert (F : Forall (fun c => is_digit c = true) d).
    { apply (Forall_iff digit); [|assumption]. intros c. symmetry. apply is_digit_iff. }
    destruct d as [|a d']; [congruence|]. assert (Da : is_digit a = true) by (now inversion F).
    apply here_token; [rewrite hd0_app; intros ->; discriminate|discriminate|].
    rewrite p_token_digit by exact Da. f_equal. unfold p_number. cbv zeta.
    rewrite (scan_stop is_digit _ s F En1), skipn_app_exact.
    assert (Z : Ascii.eqb (hd0 s) "." && is_digit (nth 1 s nul) = false).
    { destruct s as [|p [|x s']]; [reflexivity|cbn [nth]; apply andb_false_r|]. unfold hd0. cbn [nth].
      destruct (Ascii.eqb p ".") eqn:Q1; [|reflexivity]. destruct (is_digit x) eqn:Q2; [|reflexivity].
      exfalso. apply En2. apply Ascii.eqb_eq in Q1. apply is_digit_iff in Q2. auto. }
    now rewrite Z.
  - (* double *)
    unfold ends_before in En. cbn [fst] in En. apply (not_next_scan is_digit) in En; [|apply is_digit_iff].
    destruct H as [Hn Hd]. destruct H0 as [Kn Kd].
    assert (F : Forall (fun c => is_digit c = true) d).
    { apply (Forall_iff digit); [|assumption]. intros c. symmetry. apply is_digit_iff. }
    assert (F' : Forall (fun c => is_digit c = true) e).
    { apply (Forall_iff digit); [|assumption]. intros c. symmetry. apply is_digit_iff. }
    destruct d as [|a d']; [congruence|]. destruct e as [|b e']; [congruence|].
    assert (Da : is_digit a = true) by (now inversion F). assert (Db : is_digit b = true) by (now inversion F').
    rewrite <- app_assoc. apply here_token; [rewrite hd0_app; intros ->; discriminate|discriminate|].
    rewrite p_token_digit by exact Da. f_equal. unfold p_number. cbv zeta.
    rewrite (scan_stop is_digit (a :: d')), skipn_app_exact; [|assumption|reflexivity].
    change (hd0 ((chars "." ++ b :: e') ++ s)) with "."%char. rewrite Ascii.eqb_refl.
    change (nth 1 ((chars "." ++ b :: e') ++ s) nul) with b. rewrite Db. cbn [andb].
    change (skipn 1 ((chars "." ++ b :: e') ++ s)) with ((b :: e') ++ s).
    rewrite (scan_stop is_digit _ s F' En).
    change (skipn (S (length (b :: e'))) ((chars "." ++ b :: e') ++ s)) with (skipn (length (b :: e')) ((b :: e') ++ s)).
    rewrite skipn_app_exact. reflexivity.
  - (* string *)
    rewrite <- !app_assoc. change (p_here (chars "'" ++ raw0 ++ chars "'" ++ s))
      with (match str_body (raw0 ++ chars "'" ++ s) with
            | SDone b r => NTok (STString, b) r | SOpen => NOpen | SBad => NBadEsc end).
    now rewrite (str_body_ok _ _ s H).
Qed.

(** ** Every token lexed has a spelling in the text *)
Lemma scan_split p s : exists r, s = scan p s ++ r /\ skipn (length (scan p s)) s = r /\
  match r with [] => True | c :: _ => p c = false end /\ Forall (fun c => p c = true) (scan p s).
Proof.
  destruct (scan_prefix p s) as (r & A & B & C). exists r. split; [assumption|]. split; [|auto].
  rewrite A at 2. apply skipn_app_exact.
Qed.
Definition spelled (s : text) (q : token * text) : Prop :=
  exists raw, s = raw ++ snd q /\ spells (fst q) raw /\ ends_before (fst q) (snd q).

Lemma p_char_spelled c t k : In (c, k) punctuation -> k <> Colon -> spelled (c :: t) (p_char k (c :: t)).
Proof.
  intros H N. exists [c]. split; [reflexivity|]. split; [now constructor|].
  unfold p_char, ends_before. cbn [fst snd]. unfold punctuation in H. cbn [In] in H.
  repeat (destruct H as [H | H]; [injection H as <- <-; try exact I; congruence|]). contradiction.
Qed.
Lemma op_ends k c r : In (c, k) operators -> not_next op_char r -> ends_before (k, [c]) r.
Proof.
  intros H N. unfold operators in H. cbn [In] in H.
  repeat (destruct H as [H | H]; [injection H as <- <-; exact N|]). contradiction.
Qed.
Lemma p_operator_spelled s : is_operator (hd0 s) = true ->
  Ascii.eqb (hd0 s) "-" && starts_with SEPARATOR s = false -> spelled s (p_operator s).
Proof.
  intros O Z. destruct s as [|c t]; [discriminate|]. unfold hd0 in *. cbn [nth] in *.
  unfold p_operator. cbn [nth]. destruct (is_operator (nth 0 t nul)) eqn:O2.
  - cbv zeta. destruct (scan_split is_operator (c :: t)) as (r & A & B & C & D). rewrite B.
    exists (scan is_operator (c :: t)). cbn [fst snd]. split; [assumption|]. split.
    + constructor.
      * destruct t as [|d t']; [discriminate|]. cbn [nth] in O2. cbn [scan]. rewrite O, O2. cbn. lia.
      * apply (Forall_iff (fun c => is_operator c = true)); [apply is_operator_iff|assumption].
      * intros q Q.
        assert (St : starts_with SEPARATOR (c :: t) = true).
        { apply starts_with_iff. exists (q ++ r). rewrite A, Q. now rewrite <- app_assoc. }
        rewrite St in Z. rewrite andb_true_r in Z.
        cbn [scan] in Q. rewrite O in Q. injection Q as -> _. discriminate.
    + apply (scan_not_next is_operator); [apply is_operator_iff|assumption].
  - exists [c]. cbn [p_char fst snd skipn]. split; [reflexivity|]. split.
    + apply sp_operator. now apply is_operator_sym.
    + apply op_ends; [now apply is_operator_sym|].
      apply (scan_not_next is_operator); [apply is_operator_iff|]. destruct t; [exact I|exact O2].
Qed.
Lemma p_number_spelled s : is_digit (hd0 s) = true -> spelled s (p_number s).
Proof.
  intros H. unfold p_number. cbv zeta.
  destruct (scan_split is_digit s) as (r & A & B & C & D). rewrite B.
  assert (Dg : digits (scan is_digit s)).
  { split; [|apply (Forall_iff (fun c => is_digit c = true)); [apply is_digit_iff|assumption]].
    destruct s as [|c t]; [discriminate|]. unfold hd0 in H. cbn in *. rewrite H. discriminate. }
  destruct (Ascii.eqb (hd0 r) "." && is_digit (nth 1 r nul)) eqn:Q.
  - apply andb_true_iff in Q as [Q1 Q2]. apply Ascii.eqb_eq in Q1.
    destruct r as [|p r']; [discriminate|]. unfold hd0 in Q1. cbn [nth] in *. subst p. cbn [skipn].
    destruct (scan_split is_digit r') as (r2 & A2 & B2 & C2 & D2). rewrite B2.
    exists (scan is_digit s ++ chars "." ++ scan is_digit r'). cbn [fst snd].
    split; [rewrite <- !app_assoc; cbn [app chars list_ascii_of_string]; rewrite <- A2; assumption|]. split.
    + apply sp_double; [assumption|].
      split; [|apply (Forall_iff (fun c => is_digit c = true)); [apply is_digit_iff|assumption]].
      destruct r' as [|c t]; [discriminate|]. cbn in *. rewrite Q2. discriminate.
    + apply (scan_not_next is_digit); [apply is_digit_iff|assumption].
  - exists (scan is_digit s). cbn [fst snd]. split; [assumption|]. split; [now constructor|]. split.
    + apply (scan_not_next is_digit); [apply is_digit_iff|assumption].
    + destruct r as [|p [|d r']]; try exact I. unfold hd0 in Q. cbn [nth] in Q. intros [-> Hd].
      apply is_digit_iff in Hd. rewrite Hd in Q. discriminate.
Qed.
Lemma p_word_spelled s : is_alpha (hd0 s) = true -> prim_here s = false -> spelled s (p_word s).
Proof.
  intros H P. unfold p_word. cbv zeta.
  destruct (scan_split is_word s) as (r & A & B & C & _). rewrite B.
  pose proof (word_of_scan s H) as W. pose proof (not_prim_not_reserved s P) as N.
  set (w := scan is_word s) in *.
  destruct (Ascii.eqb (hd0 r) ":") eqn:Q.
  - destruct r as [|p r']; [discriminate|]. apply Ascii.eqb_eq in Q. unfold hd0 in Q. cbn [nth] in Q. subst p.
    cbn [skipn]. destruct (is_alpha (hd0 r')) eqn:Q2.
    + destruct (scan_split is_key r') as (r2 & A2 & B2 & C2 & D2). rewrite B2.
      destruct r' as [|a k]; [discriminate|]. unfold hd0 in Q2. cbn [nth] in Q2.
      assert (K : is_key a = true) by (unfold is_key; now rewrite Q2).
      assert (Sk : scan is_key (a :: k) = a :: scan is_key k) by (cbn [scan]; now rewrite K).
      exists (w ++ chars ":" ++ a :: scan is_key k). cbn [fst snd].
      split; [rewrite Sk in A2; rewrite <- !app_assoc; cbn [app chars list_ascii_of_string] in *; now rewrite <- A2|].
      rewrite Sk in *. split.
      * apply (sp_keywords w a (scan is_key k)); [assumption|assumption|now apply is_alpha_iff|].
        inversion D2 as [|? ? ? D3]. apply (Forall_iff (fun c => is_key c = true)); [apply is_key_iff|assumption].
      * apply (scan_not_next is_key); [apply is_key_iff|assumption].
    + exists (w ++ chars ":"). cbn [fst snd]. split; [rewrite <- app_assoc; assumption|].
      split; [now apply (sp_keyword w)|].
      apply (scan_not_next is_alpha); [apply is_alpha_iff|]. destruct r'; [exact I|exact Q2].
  - exists w. cbn [fst snd]. split; [assumption|]. split; [now constructor|].
    destruct r as [|c r']; [exact I|]. cbn. unfold hd0 in Q. cbn [nth] in Q.
    apply Ascii.eqb_neq in Q. rewrite <- is_word_iff. intros [K | K]; congruence.
Qed.
Lemma some_inv {A} (a b : A) : Some a = Some b -> a = b. Proof. congruence. Qed.
Lemma p_token_spelled s q : p_token s = Some q -> s <> [] -> spelled s q.
Proof.
  intros H N. destruct s as [|c t]; [congruence|]. clear N.
  destruct (is_operator c) eqn:O.
  { rewrite (p_token_op (c :: t) O) in H.
    destruct (Ascii.eqb (hd0 (c :: t)) "-" && starts_with SEPARATOR (c :: t)) eqn:Z; apply some_inv in H; subst q.
    - apply andb_true_iff in Z as [_ Z]. apply starts_with_app in Z as [r Z].
      destruct (scan_split (Ascii.eqb "-") (c :: t)) as (r2 & A & B & C & D). rewrite B.
      exists (scan (Ascii.eqb "-") (c :: t)). cbn [fst snd]. split; [assumption|].
      assert (K : forall x, Ascii.eqb "-" x = true <-> dash x).
      { intros x. rewrite Ascii.eqb_eq. unfold dash. split; congruence. }
      split; [constructor|].
      + rewrite Z. cbn. lia.
      + apply (Forall_iff (fun c => Ascii.eqb "-" c = true)); assumption.
      + apply (scan_not_next (Ascii.eqb "-")); assumption.
    - now apply p_operator_spelled. }
  destruct (special c) eqn:S.
  { unfold special in S. rewrite !orb_true_iff, !Ascii.eqb_eq in S. unfold p_token, hd0 in H. cbn [nth] in H.
    destruct S as [[[[[[[-> | ->] | ->] | ->] | ->] | ->] | ->] | ->];
    try (cbv zeta in H; cbn [Ascii.eqb Bool.eqb] in H; apply some_inv in H; subst q;
         apply p_char_spelled; [vm_compute; tauto|discriminate]).
    cbv zeta in H. cbn [Ascii.eqb Bool.eqb] in H. fold (Ascii.eqb) in H.
    destruct t as [|d t'].
    { apply some_inv in H; subst q. exists (chars ":"). split; [reflexivity|]. split; [|exact I].
      apply sp_punctuation. vm_compute. tauto. }
    cbn [nth skipn] in H.
    match type of H with (if ?b then _ else _) = _ => change b with (Ascii.eqb d "=") in H end.
    destruct (Ascii.eqb d "=") eqn:E; apply some_inv in H; subst q.
    - apply Ascii.eqb_eq in E. subst d. exists (chars ":="). split; [reflexivity|]. split; [constructor|exact I].
    - exists (chars ":"). split; [reflexivity|]. split; [apply sp_punctuation; vm_compute; tauto|].
      cbn. now apply Ascii.eqb_neq. }
  rewrite (p_token_plain (c :: t) S O) in H.
  destruct (prim_here (c :: t)) eqn:P.
  { apply some_inv in H; subst q. unfold prim_here in P. apply andb_true_iff in P as [P1 P2].
    apply starts_with_app in P1 as [r Pr]. rewrite Pr in *. rewrite skipn_app_exact.
    exists (chars "primitive"). cbn [fst snd]. split; [reflexivity|]. split; [constructor|].
    rewrite app_nth2, Nat.sub_diag in P2 by lia. apply negb_true_iff in P2.
    unfold ends_before. cbn [fst]. apply (scan_not_next is_alnum); [apply is_alnum_iff|].
    destruct r; [exact I|exact P2]. }
  destruct (is_alpha (hd0 (c :: t))) eqn:A; [apply some_inv in H; subst q; now apply p_word_spelled|].
  destruct (is_digit (hd0 (c :: t))) eqn:D; [apply some_inv in H; subst q; now apply p_number_spelled|discriminate].
Qed.
Lemma p_here_spelled s t r : p_here s = NTok t r -> spelled s (t, r).
Proof.
  destruct s as [|c u]; [discriminate|]. unfold p_here. destruct (Ascii.eqb c "'") eqn:Q.
  - pose proof (str_body_inv u) as K. destruct (str_body u) as [b r'| |]; try discriminate.
    intros E. injection E as <- <-. destruct K as (raw & -> & D). apply Ascii.eqb_eq in Q. subst c.
    exists (chars "'" ++ raw ++ chars "'"). cbn [fst snd]. split; [rewrite <- !app_assoc; reflexivity|].
    split; [now constructor|exact I].
  - destruct (p_token (c :: u)) as [[t' r']|] eqn:P; [|discriminate]. intros E. injection E as <- <-.
    apply p_token_spelled; [assumption|discriminate].
Qed.

(** The first character of a spelling starts no separator. *)
Lemma spells_skip t raw s : spells t raw -> skip false (raw ++ s) = raw ++ s.
Proof.
  assert (K : forall c u, is_alpha c || is_digit c || is_operator c || special c || Ascii.eqb c "'" = true ->
    skip false (c :: u) = c :: u).
  { intros c u H. pose proof (kinds c) as Kc. cbn [skip].
    assert (Z : is_space c = false /\ Ascii.eqb c dquote = false).
    { destruct (Ascii.eqb c "'") eqn:Q; [apply Ascii.eqb_eq in Q; subst c; split; reflexivity|].
      rewrite orb_false_r in H.
      destruct (is_alpha c), (is_digit c), (is_operator c), (special c), (is_space c), (Ascii.eqb c dquote);
        cbn in H, Kc; rewrite ?andb_false_r in Kc; auto; try discriminate;
        destruct (Ascii.eqb c "p"); discriminate. }
    destruct Z as [-> ->]. reflexivity. }
  intros Sp. inversion Sp; subst; clear Sp.
  - unfold punctuation in H. cbn [In] in H.
    repeat (destruct H as [H | H]; [injection H as <- <-; apply K; reflexivity|]). contradiction.
  - reflexivity.
  - destruct (op_sym_of _ _ H) as [O _]. cbn [app]. apply K. rewrite O, orb_true_r. reflexivity.
  - destruct raw as [|c u]; [cbn in H; lia|]. pose proof (Forall_inv H0) as O. apply is_operator_iff in O.
    cbn [app]. apply K. rewrite O, orb_true_r. reflexivity.
  - destruct raw as [|c u]; [cbn in H; lia|]. pose proof (Forall_inv H0) as O. unfold dash in O. subst c. reflexivity.
  - reflexivity.
  - destruct H as (a & u & -> & A & _). cbn [app]. apply K. apply is_alpha_iff in A. now rewrite A.
  - destruct H as (a & u & -> & A & _). cbn [app]. apply K. apply is_alpha_iff in A. now rewrite A.
  - destruct H as (a' & u & -> & A & _). cbn [app]. apply K. apply is_alpha_iff in A. now rewrite A.
  - destruct H as [Hn Hd]. destruct raw as [|a u]; [congruence|]. pose proof (Forall_inv Hd) as A.
    apply is_digit_iff in A. cbn [app]. apply K. rewrite A, orb_true_r. reflexivity.
  - destruct H as [Hn Hd]. destruct d as [|a u]; [congruence|]. pose proof (Forall_inv Hd) as A.
    apply is_digit_iff in A. cbn [app]. apply K. rewrite A, orb_true_r. reflexivity.
  - reflexivity.
Qed.

Lemma p_next_iff s t r : p_next s = NTok t r <->
  exists g raw, s = g ++ raw ++ r /\ gap g /\ spells t raw /\ ends_before t r.
Proof.
  split.
  - intros H. unfold p_next in H. destruct (skip_inv s) as [(g & G & E) | (E & _)].
    + apply p_here_spelled in H as (raw & A & B & C). cbn [fst snd] in *. exists g, raw.
      split; [rewrite <- A; assumption|]. auto.
    + rewrite E in H. discriminate.
  - intros (g & raw & -> & G & Sp & En). unfold p_next. rewrite skip_gap by assumption.
    rewrite (spells_skip t) by assumption. now apply spells_here.
Qed.
Lemma p_next_end s : p_next s = NEnd <-> tail_gap s.
Proof.
  split.
  - unfold p_next. destruct (skip_inv s) as [(g & G & E) | (E & H)]; [|auto].
    destruct (skip false s) as [|c t] eqn:Q.
    + intros _. rewrite app_nil_r in E. subst g. now constructor.
    + cbn [p_here]. destruct (Ascii.eqb c "'"); [destruct (str_body t); discriminate|].
      destruct (p_token (c :: t)) as [[? ?]|]; discriminate.
  - intros H. unfold p_next. rewrite (skip_tail_gap s H). reflexivity.
Qed.

(** * Histories *)
Lemma spells_ne t raw : spells t raw -> raw <> [].
Proof.
  intros H. inversion H; subst; try discriminate.
  - destruct raw; [cbn in H0; lia|discriminate].
  - destruct raw; [cbn in H0; lia|discriminate].
  - destruct H0 as (a & u & -> & _). discriminate.
  - destruct H0 as (a & u & -> & _). discriminate.
  - destruct H0 as (a' & u & -> & _). discriminate.
  - destruct H0 as [Hn _]. exact Hn.
  - destruct H0 as [Hn _]. destruct d; [congruence|discriminate].
Qed.
Lemma ok_eq_inv {A} (a b : A) : Ok a = Ok b -> a = b. Proof. congruence. Qed.

Lemma read_tokens_ok T fuel : forall s ts r, tokens s ts r -> forall st, inv T st -> R st = s ->
  length s + 1 < fuel ->
  exists st', read_tokens fuel (length ts) st = Ok (ts, st') /\ inv T st' /\ R st' = r /\
    (ts <> [] -> exact T st').
Proof.
  induction 1 as [r|g t raw s ts r G Sp En Tk IH]; intros st Iv HR L.
  - exists st. cbn. split; [reflexivity|]. split; [assumption|]. split; [assumption|]. congruence.
  - pose proof (next_token_pure T fuel st Iv) as P. rewrite HR in P. specialize (P L).
    assert (Q : p_next (g ++ raw ++ s) = NTok t s) by (apply p_next_iff; exists g, raw; auto).
    rewrite Q in P. destruct P as (st1 & P1 & P2 & P3).
    rewrite !app_length in L.
    destruct (IH st1 (or_introl P2) P3 ltac:(lia)) as (st' & A & B & C & D).
    exists st'. cbn [length read_tokens]. rewrite P1. cbn [bind fst snd]. rewrite A. cbn [bind fst snd].
    split; [reflexivity|]. split; [assumption|]. split; [assumption|]. intros _.
    destruct ts as [|t2 ts']; [|apply D; discriminate].
    cbn in A. apply ok_eq_inv in A. injection A as <-. assumption.
Qed.

Definition ends (t : token) : Prop := fst t = NONE.
Lemma spells_not_none t raw : spells t raw -> ~ ends t.
Proof.
  intros H. inversion H; subst; unfold ends; cbn [fst]; try discriminate.
  - unfold punctuation in H0. cbn [In] in H0.
    repeat (destruct H0 as [H0 | H0]; [injection H0 as <- <-; discriminate|]). contradiction.
  - unfold operators in H0. cbn [In] in H0.
    repeat (destruct H0 as [H0 | H0]; [injection H0 as <- <-; discriminate|]). contradiction.
Qed.
(** What one reading can be. *)
Lemma next_cases T fuel st t st' : inv T st -> length (R st) + 1 < fuel ->
  next_token fuel st = Ok (t, st') ->
  (t = end_token /\ eof T st' /\ tail_gap (R st)) \/
  (exists g raw, R st = g ++ raw ++ R st' /\ gap g /\ spells t raw /\ ends_before t (R st') /\ exact T st') \/
  (exists g c, t = (NONE, [c]) /\ R st = g ++ R st' /\ gap g /\ exact T st' /\ hd_error (R st') = Some c /\
     p_next (R st) = NBadChar c (R st')).
Proof.
  intros Iv L H. pose proof (next_token_pure T fuel st Iv L) as P. rewrite H in P.
  destruct (p_next (R st)) as [|t' r|c r| |] eqn:Q; cbn [next_ok] in P; try discriminate.
  - destruct P as (st2 & P & E). apply ok_eq_inv in P. injection P as -> ->. left.
    split; [reflexivity|]. split; [assumption|]. now apply p_next_end.
  - destruct P as (st2 & P & E & K). apply ok_eq_inv in P. injection P as -> ->. subst r. right. left.
    apply p_next_iff in Q as (g & raw & A & B & C & D). exists g, raw. auto.
  - destruct P as (st2 & P & E & _ & K). apply ok_eq_inv in P. injection P as -> ->. subst r. right. right.
    unfold p_next in Q. destruct (skip_inv (R st)) as [(g & G & A) | (A & _)].
    2:{ rewrite A in Q. discriminate. }
    destruct (skip false (R st)) as [|d u] eqn:S; [discriminate|]. cbn [p_here] in Q.
    destruct (Ascii.eqb d "'"); [destruct (str_body u); discriminate|].
    destruct (p_token (d :: u)) as [[? ?]|]; [discriminate|]. injection Q as <- Q2. rewrite <- Q2 in *.
    exists g, d. cbn [hd_error]. split; [reflexivity|]. split; [assumption|]. auto.
Qed.
Lemma read_tokens_inv T fuel : forall n st ts st', inv T st -> length (R st) + 1 < fuel ->
  read_tokens fuel n st = Ok (ts, st') -> Forall (fun t => ~ ends t) ts ->
  tokens (R st) ts (R st').
Proof.
  induction n as [|n IH]; intros st ts st' Iv L H F.
  - cbn in H. apply ok_eq_inv in H. injection H as <- <-. constructor.
  - cbn [read_tokens] in H. destruct (next_token fuel st) as [[t st1]|e] eqn:N; [|discriminate].
    cbn [bind fst snd] in H. destruct (read_tokens fuel n st1) as [[ts1 st2]|e] eqn:K; [|discriminate].
    cbn [bind fst snd] in H. apply ok_eq_inv in H. injection H as <- <-.
    pose proof (Forall_inv F) as F1. apply Forall_inv_tail in F.
    destruct (next_cases T fuel st t st1 Iv L N) as [(-> & _) | [(g & raw & A & B & C & D & E) | (g & c & -> & _)]].
    + exfalso. apply F1. reflexivity.
    + rewrite A in *. constructor; [assumption|assumption|assumption|].
      apply (IH st1); [now left|rewrite !app_length in L; lia|assumption|assumption].
    + exfalso. apply F1. reflexivity.
Qed.

Lemma read_end T fuel st : inv T st -> tail_gap (R st) -> length (R st) + 1 < fuel ->
  exists st', next_token fuel st = Ok (end_token, st') /\ eof T st'.
Proof.
  intros Iv H L. pose proof (next_token_pure T fuel st Iv L) as P.
  apply p_next_end in H. now rewrite H in P.
Qed.
Lemma read_end_n T fuel : forall n st, inv T st -> tail_gap (R st) -> length (R st) + 1 < fuel ->
  exists st', read_tokens fuel n st = Ok (repeat end_token n, st').
Proof.
  induction n as [|n IH]; intros st Iv H L; [exists st; reflexivity|].
  destruct (read_end T fuel st Iv H L) as (st1 & A & B). cbn [read_tokens repeat]. rewrite A. cbn [bind fst snd].
  pose proof (eof_R _ _ B) as Q.
  destruct (IH st1 (or_intror B)) as (st2 & C).
  - rewrite Q. repeat constructor.
  - rewrite Q. cbn [length]. lia.
  - exists st2. now rewrite C.
Qed.
Lemma read_tokens_app fuel : forall n m st ts st1 us st2,
  read_tokens fuel n st = Ok (ts, st1) -> read_tokens fuel m st1 = Ok (us, st2) ->
  read_tokens fuel (n + m) st = Ok (ts ++ us, st2).
Proof.
  induction n as [|n IH]; intros m st ts st1 us st2 A B.
  - cbn in A. apply ok_eq_inv in A. injection A as <- <-. exact B.
  - cbn [read_tokens Nat.add] in *. destruct (next_token fuel st) as [[t st']|e]; [|discriminate].
    cbn [bind fst snd] in *. destruct (read_tokens fuel n st') as [[ts1 st3]|e] eqn:K; [|discriminate].
    cbn [bind fst snd] in *. apply ok_eq_inv in A. injection A as <- <-.
    now rewrite (IH m st' ts1 st3 us st2 K B).
Qed.
Lemma read_tokens_length fuel : forall n st ts st', read_tokens fuel n st = Ok (ts, st') -> length ts = n.
Proof.
  induction n as [|n IH]; intros st ts st' H; cbn [read_tokens] in H.
  - apply ok_eq_inv in H. now injection H as <- _.
  - destruct (next_token fuel st) as [[t st1]|e]; [|discriminate]. cbn [bind fst snd] in H.
    destruct (read_tokens fuel n st1) as [[ts1 st2]|e] eqn:K; [|discriminate]. cbn [bind fst snd] in H.
    apply ok_eq_inv in H. injection H as <- _. cbn. now rewrite (IH _ _ _ K).
Qed.
Lemma tokens_spelled s ts r : tokens s ts r -> Forall (fun t => ~ ends t) ts.
Proof. induction 1 as [|g t raw s ts r G Sp En Tk IH]; constructor; [now apply (spells_not_none t raw)|assumption]. Qed.
Lemma tokens_len s ts r : tokens s ts r -> length ts + length r <= length s.
Proof.
  induction 1 as [|g t raw s ts r G Sp En Tk IH]; [cbn; lia|].
  rewrite !app_length. apply spells_ne in Sp. destruct raw; [congruence|]. cbn [length]. lia.
Qed.

Lemma grammar_iff T fuel ts : length T + 1 < fuel ->
  (exists r, tokens T ts r) <->
  (exists st, read_tokens fuel (length ts) (new_lexer T) = Ok (ts, st)) /\ Forall (fun t => fst t <> NONE) ts.
Proof.
  intros L. split.
  - intros [r H]. split; [|exact (tokens_spelled _ _ _ H)].
    destruct (read_tokens_ok T fuel T ts r H (new_lexer T) (inv_new T) eq_refl L) as (st & A & _). eauto.
  - intros [[st H] F]. exists (R st).
    exact (read_tokens_inv T fuel _ (new_lexer T) ts st (inv_new T) L H F).
Qed.
Lemma tokens_unique T ts r ts' r' :
  tokens T ts r -> tokens T ts' r' -> length ts = length ts' -> ts = ts' /\ r = r'.
Proof.
  intros A B L.
  destruct (read_tokens_ok T (length T + 2) T ts r A (new_lexer T) (inv_new T) eq_refl ltac:(lia)) as (s1 & A1 & _ & A2 & _).
  destruct (read_tokens_ok T (length T + 2) T ts' r' B (new_lexer T) (inv_new T) eq_refl ltac:(lia)) as (s2 & B1 & _ & B2 & _).
  rewrite L, B1 in A1. apply ok_eq_inv in A1. injection A1 as <- <-. split; congruence.
Qed.

Lemma gap_head g : gap g -> g <> [] -> exists c t, g = c :: t /\ (white c \/ c = quote2).
Proof. intros [|c g' W G|b g' N G] H; [congruence|eauto|eauto]. Qed.
Lemma white_or_quote c : white c \/ c = quote2 ->
  is_word c = false /\ is_key c = false /\ is_digit c = false /\ is_operator c = false /\ is_alpha c = false
  /\ c <> "-"%char /\ c <> "="%char /\ c <> ":"%char /\ c <> "."%char.
Proof.
  intros H.
  assert (K : (is_space c || Ascii.eqb c quote2)%bool = true).
  { destruct H as [H | ->]; [apply is_space_iff in H; now rewrite H|]. apply orb_true_r. }
  assert (Q : implb (is_space c || Ascii.eqb c quote2) (negb (is_word c) && negb (is_key c) && negb (is_digit c)
    && negb (is_operator c) && negb (is_alpha c) && negb (Ascii.eqb c "-") && negb (Ascii.eqb c "=")
    && negb (Ascii.eqb c ":") && negb (Ascii.eqb c "."))%char = true).
  { revert c H K. intros c _ _. revert c. apply all_ascii. vm_compute. reflexivity. }
  rewrite K in Q. cbn [implb] in Q. rewrite !andb_true_iff, !negb_true_iff, !Ascii.eqb_neq in Q. tauto.
Qed.
Lemma ends_before_gap t raw g s : spells t raw -> gap g -> g <> [] -> ends_before t (g ++ s).
Proof.
  intros Sp G N. destruct (gap_head g G N) as (c & u & -> & H).
  destruct (white_or_quote c H) as (A & B & C & D & E & F & F1 & F2 & F3).
  assert (NW : ~ word_char c) by (rewrite <- is_word_iff; congruence).
  assert (NL : ~ letter c) by (rewrite <- is_alpha_iff; congruence).
  assert (ND : ~ digit c) by (rewrite <- is_digit_iff; congruence).
  assert (NO : ~ op_char c) by (rewrite <- is_operator_iff; congruence).
  cbn [app]. unfold ends_before, not_next, dash. destruct (fst t); try tauto.
  split; [assumption|]. destruct (u ++ s); [exact I|]. tauto.
Qed.
Lemma render_tokens l : Forall item_ok l -> forall lead, gap lead ->
  tokens (render lead l) (map i_token l) (match l with [] => lead | _ => i_gap (last l {| i_token := (NONE, []); i_raw := []; i_gap := [] |}) end).
Proof.
  induction l as [|i l IH]; intros F lead G.
  - unfold render. cbn [map concat]. rewrite app_nil_r. constructor.
  - pose proof (Forall_inv F) as (Sp & Gi & Ni). apply Forall_inv_tail in F.
    unfold render. cbn [map concat]. rewrite <- app_assoc.
    specialize (IH F (i_gap i) Gi). unfold render in IH.
    constructor; [assumption|assumption|now apply (ends_before_gap _ (i_raw i))|].
    destruct l as [|i2 l']; exact IH.
Qed.
Lemma render_end l lead : Forall item_ok l -> gap lead ->
  gap (match l with [] => lead | _ => i_gap (last l {| i_token := (NONE, []); i_raw := []; i_gap := [] |}) end).
Proof.
  intros F G. destruct l as [|i l]; [assumption|].
  rewrite Forall_forall in F. apply F. destruct (exists_last (l := i :: l)) as (l' & x & E); [discriminate|].
  rewrite E, last_last. apply in_or_app. right. now left.
Qed.

Lemma escape_denotes s : denotes (escape s) s.
Proof.
  induction s as [|c s IH]; [constructor|]. unfold escape. cbn [map concat].
  destruct (Ascii.eqb c "'") eqn:Q; [|destruct (Ascii.eqb c "\") eqn:B]; cbn [orb app].
  - apply Ascii.eqb_eq in Q. subst c. apply den_escape; [vm_compute; tauto|exact IH].
  - apply Ascii.eqb_eq in B. subst c. apply den_escape; [vm_compute; tauto|exact IH].
  - apply Ascii.eqb_neq in Q, B. now apply den_plain.
Qed.

(** * Streams, again *)
Lemma read_lines_spec : forall n s, s_pos s <= length (s_string s) ->
  fst (read_lines n s) = firstn n (lines (rest s)) ++ repeat [] (n - length (lines (rest s))).
Proof.
  induction n as [|n IH]; intros s P; [reflexivity|]. cbn [read_lines].
  destruct (readline_spec s P) as (A & B & C & D & E).
  destruct (readline s) as [l s1]. cbn [fst snd] in *.
  specialize (IH s1 ltac:(now rewrite C)). destruct (read_lines n s1) as [ls s2]. cbn [fst snd] in *.
  rewrite IH, B, A. destruct (rest s) as [|c t] eqn:Q.
  - cbn [split_line fst snd lines length]. rewrite !Nat.sub_0_r. cbn [repeat]. now rewrite !firstn_nil.
  - rewrite (lines_split (c :: t)) by discriminate. cbn [firstn length app]. reflexivity.
Qed.
Lemma line_shape s : forall l, In l (lines s) -> exists b, ~ In newline b /\ (l = b ++ [newline] \/ (l = b /\ b <> [])).
Proof.
  induction s as [|c t IH]; intros l H; [contradiction|]. cbn [lines] in H.
  change (ascii_of_nat 10) with newline in H.
  destruct (Ascii.eqb c newline) eqn:E.
  - apply Ascii.eqb_eq in E. subst c. destruct H as [<- | H]; [|now apply IH]. exists []. auto.
  - apply Ascii.eqb_neq in E. destruct (lines t) as [|m ms] eqn:Q.
    + destruct H as [<- | []]. exists [c]. split; [intros [K | []]; auto|]. right. split; [reflexivity|discriminate].
    + destruct H as [<- | H]; [|apply IH; now right].
      destruct (IH m (or_introl eq_refl)) as (b & N & [-> | (-> & Nb)]).
      * exists (c :: b). split; [intros [K | K]; auto|]. now left.
      * exists (c :: b). split; [intros [K | K]; auto|]. right. split; [reflexivity|discriminate].
Qed.

(** * Termination *)
Lemma terminates T : forall n st, inv T st -> length (R st) <= n ->
  (exists k ts t, k <= length (R st) /\ length ts = k /\ fst t = NONE /\
     forall fuel, length (R st) + 1 < fuel -> exists st', read_tokens fuel (S k) st = Ok (ts ++ [t], st')) \/
  (exists k, k <= length (R st) /\ forall fuel, length (R st) + 1 < fuel -> read_tokens fuel (S k) st = Err PyException) \/
  (exists ts g raw, tokens (R st) ts (g ++ chars "'" ++ raw) /\ gap g /\ unclosed raw).
Proof.
  induction n as [|n IH]; intros st Iv L.
  - left. exists 0, [], end_token. split; [lia|]. split; [reflexivity|]. split; [reflexivity|].
    intros fuel Lf. assert (E : R st = []) by (destruct (R st); [reflexivity|cbn in L; lia]).
    destruct (read_end T fuel st Iv) as (st' & A & B); [rewrite E; repeat constructor|lia|].
    exists st'. cbn [read_tokens]. rewrite A. reflexivity.
  - set (f0 := length (R st) + 2).
    pose proof (next_token_pure T f0 st Iv ltac:(lia)) as P0.
    assert (P : forall fuel, length (R st) + 1 < fuel -> next_token fuel st = next_token f0 st).
    { intros fuel Lf. destruct (next_token_mono f0 fuel st ltac:(lia)) as [K | K]; [|congruence].
      pose proof (next_token_pure T fuel st Iv Lf) as P1. rewrite K in P0.
      destruct (p_next (R st)); cbn [next_ok] in *; try congruence.
      - destruct P0 as (? & ? & ?). discriminate.
      - destruct P0 as (? & ? & ?). discriminate.
      - destruct P0 as (? & ? & ?). discriminate. }
    destruct (p_next (R st)) as [|t r|c r| |] eqn:Q; cbn [next_ok] in P0.
    + destruct P0 as (st' & A & B). left. exists 0, [], end_token. split; [lia|]. split; [reflexivity|].
      split; [reflexivity|]. intros fuel Lf. exists st'. cbn [read_tokens]. rewrite (P fuel Lf), A. reflexivity.
    + destruct P0 as (st1 & A & B & C). apply p_next_iff in Q as (g & raw & E & G & Sp & En).
      assert (Lr : length r < length (R st)).
      { rewrite E, !app_length. apply spells_ne in Sp. destruct raw; [congruence|]. cbn [length]. lia. }
      destruct (IH st1 (or_introl B)) as [(k & ts & t' & K1 & K2 & K3 & K4) | [(k & K1 & K2) | (ts & g' & raw' & K1 & K2 & K3)]];
        [rewrite C; lia| | |].
      * left. exists (S k), (t :: ts), t'. rewrite C in *. split; [lia|]. split; [cbn; now rewrite K2|].
        split; [assumption|]. intros fuel Lf. destruct (K4 fuel ltac:(lia)) as (st' & K5). exists st'.
        change (read_tokens fuel (S (S k)) st) with (bind (next_token fuel st) (fun r =>
            bind (read_tokens fuel (S k) (snd r)) (fun q => Ok (fst r :: fst q, snd q)))).
        rewrite (P fuel Lf), A. cbn [bind fst snd]. rewrite K5. reflexivity.
      * right. left. exists (S k). rewrite C in *. split; [lia|]. intros fuel Lf.
        change (read_tokens fuel (S (S k)) st) with (bind (next_token fuel st) (fun r =>
            bind (read_tokens fuel (S k) (snd r)) (fun q => Ok (fst r :: fst q, snd q)))).
        rewrite (P fuel Lf), A. cbn [bind fst snd]. rewrite K2 by lia. reflexivity.
      * right. right. exists (t :: ts), g', raw'. split; [|auto]. rewrite E. rewrite C in K1. now constructor.
    + destruct P0 as (st1 & A & _). left. exists 0, [], (NONE, [c]). split; [lia|]. split; [reflexivity|].
      split; [reflexivity|]. intros fuel Lf. exists st1. cbn [read_tokens]. rewrite (P fuel Lf), A. reflexivity.
    + right. right. exists []. unfold p_next in Q. destruct (skip_inv (R st)) as [(g & G & E) | (E & _)].
      2:{ rewrite E in Q. discriminate. }
      destruct (skip false (R st)) as [|c t] eqn:Sk; [discriminate|]. cbn [p_here] in Q.
      destruct (Ascii.eqb c "'") eqn:Qc.
      2:{ destruct (p_token (c :: t)) as [[? ?]|]; discriminate. }
      pose proof (str_body_inv t) as U. destruct (str_body t); try discriminate.
      apply Ascii.eqb_eq in Qc. subst c. exists g, t. split; [rewrite E; constructor|]. auto.
    + right. left. exists 0. split; [lia|]. intros fuel Lf. cbn [read_tokens]. rewrite (P fuel Lf), P0. reflexivity.
Qed.
Lemma str_body_unclosed raw : unclosed raw -> str_body raw = SOpen.
Proof.
  induction 1 as [|c raw A B U IH|e raw U IH]; [reflexivity| |].
  - cbn [str_body]. apply Ascii.eqb_neq in A, B. now rewrite A, B, IH.
  - cbn [str_body]. change (Ascii.eqb "\" "'") with false. cbv iota. now rewrite Ascii.eqb_refl, IH.
Qed.
Lemma next_token_mono_ok f f' st r : f <= f' -> next_token f st = Ok r -> next_token f' st = Ok r.
Proof. intros L H. destruct (next_token_mono f f' st L) as [K | K]; congruence. Qed.
Lemma read_tokens_mono : forall n f f' st, f <= f' -> fuel_le (read_tokens f n st) (read_tokens f' n st).
Proof.
  induction n as [|n IH]; intros f f' st L; [now right|]. cbn [read_tokens].
  apply bind_mono; [now apply next_token_mono|]. intros r. apply bind_mono; [now apply IH|]. intros q. now right.
Qed.
Lemma unclosed_diverges T ts g raw : tokens T ts (g ++ chars "'" ++ raw) -> gap g -> unclosed raw ->
  forall fuel, read_tokens fuel (length ts + 1) (new_lexer T) = Err OutOfFuel.
Proof.
  intros H G U fuel.
  set (f := fuel + length T + 2).
  destruct (read_tokens_ok T f T ts _ H (new_lexer T) (inv_new T) eq_refl ltac:(lia)) as (st & A & B & C & _).
  assert (N : next_token f st = Err OutOfFuel).
  { apply (next_token_open T); [assumption|]. rewrite C. unfold p_next. rewrite skip_gap by assumption.
    change (skip false (chars "'" ++ raw)) with (chars "'" ++ raw).
    change (p_here (chars "'" ++ raw)) with (match str_body raw with
            | SDone b r => NTok (STString, b) r | SOpen => NOpen | SBad => NBadEsc end).
    now rewrite str_body_unclosed. }
  assert (F : read_tokens f (length ts + 1) (new_lexer T) = Err OutOfFuel).
  { clear - A N. revert A. generalize (new_lexer T). induction ts as [|t ts IH]; intros st0 A.
    - cbn in A. apply ok_eq_inv in A. injection A as ->. cbn [length Nat.add read_tokens]. now rewrite N.
    - cbn [length Nat.add read_tokens] in *. destruct (next_token f st0) as [[t' st1]|e]; [|discriminate].
      cbn [bind fst snd] in *. destruct (read_tokens f (length ts) st1) as [[ts1 st2]|e] eqn:K; [|discriminate].
      cbn [bind fst snd] in A. apply ok_eq_inv in A. injection A as -> -> ->. now rewrite (IH st1 K). }
  destruct (read_tokens_mono (length ts + 1) fuel f (new_lexer T) ltac:(lia)) as [K | K]; congruence.
Qed.

(** * Peeking *)
Lemma expected_shift (ts : nat -> token) : forall h pos, expected ts (S pos) h = expected (fun i => ts (S i)) pos h.
Proof. induction h as [|[] h IH]; intros pos; cbn [expected]; [reflexivity| |]; now rewrite IH. Qed.
Lemma expected_ext (f g : nat -> token) : (forall i, f i = g i) -> forall h pos, expected f pos h = expected g pos h.
Proof. intros H. induction h as [|[] h IH]; intros pos; cbn [expected]; [reflexivity| |]; now rewrite H, IH. Qed.
Lemma run_calls_ok fuel d : forall h n x ts st',
  length (filter is_get h) + 1 <= n ->
  (if x_peek_done x then exists m ts1, n = S m /\ ts = x_next x :: ts1 /\ read_tokens fuel m (x_lex x) = Ok (ts1, st')
   else read_tokens fuel n (x_lex x) = Ok (ts, st')) ->
  no_double_peek (x_peek_done x) h ->
  run_calls fuel x h = Ok (expected (fun i => nth i ts d) 0 h).
Proof.
  induction h as [|[] h IH]; intros n x ts st' L H N; [reflexivity| |].
  - cbn [filter is_get length] in L. cbn [run_calls no_double_peek expected] in *. unfold get_sym.
    destruct (x_peek_done x) eqn:P.
    + destruct H as (m & ts1 & -> & -> & H). cbn [bind fst snd nth].
      rewrite (IH m _ ts1 st'); [|lia|exact H|exact N]. cbn [bind]. rewrite expected_shift. reflexivity.
    + destruct n as [|m]; [lia|]. cbn [read_tokens] in H.
      destruct (next_token fuel (x_lex x)) as [[t l1]|e]; [|discriminate]. cbn [bind fst snd] in *.
      destruct (read_tokens fuel m l1) as [[ts1 st1]|e] eqn:K; [|discriminate].
      cbn [bind fst snd] in H. apply ok_eq_inv in H. injection H as <- <-. cbn [nth].
      rewrite (IH m _ ts1 st1); [|lia|exact K|exact N]. cbn [bind]. rewrite expected_shift. reflexivity.
  - cbn [filter is_get length] in L. cbn [run_calls no_double_peek expected] in *. destruct N as [N1 N2].
    unfold peek, get_sym. rewrite N1 in *. destruct n as [|m]; [lia|]. cbn [read_tokens] in H.
    destruct (next_token fuel (x_lex x)) as [[t l1]|e]; [|discriminate]. cbn [bind fst snd] in *.
    destruct (read_tokens fuel m l1) as [[ts1 st1]|e] eqn:K; [|discriminate].
    cbn [bind fst snd] in H. apply ok_eq_inv in H. injection H as <- <-. cbn [nth x_lex].
    rewrite (IH (S m) _ (t :: ts1) st1); [reflexivity|assumption| |exact N2].
    cbn [x_peek_done x_next x_lex]. exists m, ts1. auto.
Qed.

(** * Positions *)
Lemma position T fuel ts r : tokens T ts r -> ts <> [] -> length T + 1 < fuel ->
  exists st, read_tokens fuel (length ts) (new_lexer T) = Ok (ts, st) /\
    chars_read st + length r = length T /\ offset T (l_line st) (current_column st) = chars_read st.
Proof.
  intros H N L.
  destruct (read_tokens_ok T fuel T ts r H (new_lexer T) (inv_new T) eq_refl L) as (st & A & _ & C & D).
  specialize (D N). exists st. split; [assumption|].
  split; [rewrite <- C; now apply exact_chars|].
  destruct (e_lines _ _ D) as (pre & L1 & L2 & L3 & L4 & L5).
  unfold offset, current_column, chars_read. rewrite Nat.add_sub.
  rewrite L4. f_equal. f_equal. f_equal. rewrite L1.
  assert (NE : pre <> []).
  { intros ->. cbn in L5. pose proof (e_len _ _ D). cbn in L3. pose proof (exact_chars _ _ D) as Q.
    unfold chars_read in Q. rewrite L4 in Q. cbn in Q. rewrite C in Q. apply tokens_len in H.
    destruct ts; [congruence|cbn in H; lia]. }
  rewrite firstn_app. replace (l_line st - 1 - length pre) with 0 by lia. rewrite firstn_O, app_nil_r.
  rewrite (app_removelast_last [] NE) at 1.
  rewrite firstn_app. assert (Q : length (removelast pre) = l_line st - 1).
  { rewrite (app_removelast_last [] NE) in L2. rewrite app_length in L2. cbn in L2. lia. }
  rewrite Q, Nat.sub_diag, firstn_O, app_nil_r. rewrite <- Q. apply firstn_all.
Qed.
Lemma position_end T fuel ts r : tokens T ts r -> tail_gap r -> length T + 1 < fuel ->
  exists st, read_tokens fuel (length ts + 1) (new_lexer T) = Ok (ts ++ [end_token], st) /\
    chars_read st = length T + length (last (lines T) []).
Proof.
  intros H G L.
  destruct (read_tokens_ok T fuel T ts r H (new_lexer T) (inv_new T) eq_refl L) as (st & A & B & C & _).
  destruct (read_end T fuel st B) as (st2 & E & F).
  - now rewrite C.
  - rewrite C. apply tokens_len in H. lia.
  - exists st2. split.
    + apply (read_tokens_app fuel (length ts) 1 _ ts st); [assumption|]. cbn [read_tokens]. now rewrite E.
    + unfold chars_read. now rewrite (f_chars _ _ F), (f_bufp _ _ F).
Qed.
