(** Proofs about ExitModel. *)
From Coq Require Import ZArith Bool String Ascii List Lia.
From Verif Require Import Base LexModel ParseModel ArgModel ExitModel ExitSpec.
Import ListNotations.
Open Scope Z_scope.
Open Scope list_scope.

Lemma on_app b a c : on b (a ++ c) = on b a ++ on b c.
Proof. unfold on. rewrite map_app, concat_app. reflexivity. Qed.
Lemma shows_refl w : shows w w [].
Proof. split; simpl; rewrite app_nil_r; reflexivity. Qed.
Lemma shows_trans w2 w1 w a b : shows w1 w a -> shows w2 w1 b -> shows w2 w (a ++ b).
Proof.
  intros [A B] [C D]. split.
  - rewrite C, A, on_app, app_assoc. reflexivity.
  - rewrite D, B, on_app, app_assoc. reflexivity.
Qed.
Lemma shows_put err t w : shows (put err t w) w [(err, t)].
Proof. destruct err; split; simpl; unfold on; simpl; rewrite ?app_nil_r; reflexivity. Qed.
Lemma shows_same w1 w2 w ws : stdout w1 = stdout w2 -> stderr w1 = stderr w2 -> shows w1 w ws -> shows w2 w ws.
Proof. intros A B [C D]. split; congruence. Qed.

(** Contexts marked as on the stack are those on the stack. *)
Definition inv (st : list frame) (w : world) : Prop :=
  (forall m, is_on_stack m w = true <-> home_of m st <> None) /\
  (forall m, home_of m st <> None -> (m < next w)%nat) /\
  (forall m, In m (gone w) -> (m < next w)%nat).

Lemma inv_put err t st w : inv st w -> inv st (put err t w).
Proof. intros H. unfold inv, put, is_on_stack in *. destruct err; simpl in *; exact H. Qed.
Lemma next_put err t w : next (put err t w) = next w.
Proof. destruct err; reflexivity. Qed.
Lemma inv_call k st w : inv ((None, k) :: st) w <-> inv st w.
Proof. unfold inv; simpl; tauto. Qed.
Lemma not_gone m w : ~ In m (gone w) -> existsb (Nat.eqb m) (gone w) = false.
Proof.
  intros H. destruct (existsb (Nat.eqb m) (gone w)) eqn:E; [|reflexivity].
  apply existsb_exists in E as (x & I & Q). apply Nat.eqb_eq in Q. subst. contradiction.
Qed.
Lemma inv_fresh k st w : inv st w -> inv ((Some (next w), k) :: st) (fresh w).
Proof.
  intros (A & B & C). repeat split; simpl.
  - intros H. destruct (Nat.eqb_spec m (next w)); [discriminate|].
    apply A. unfold is_on_stack in *. simpl in H. apply andb_true_iff in H as [L G].
    apply Nat.ltb_lt in L. rewrite G, andb_true_r. apply Nat.ltb_lt. lia.
  - intros H. unfold is_on_stack. simpl. destruct (Nat.eqb_spec m (next w)) as [Q|N].
    + rewrite Q, not_gone by (intros I; apply C in I; lia). rewrite andb_true_r. apply Nat.ltb_lt. lia.
    + apply A in H. unfold is_on_stack in H. apply andb_true_iff in H as [L G].
      rewrite G, andb_true_r. apply Nat.ltb_lt in L. apply Nat.ltb_lt. lia.
  - intros m H. destruct (Nat.eqb_spec m (next w)); [lia|]. apply B in H. lia.
  - intros m H. apply C in H. lia.
Qed.
Lemma inv_gone n k st w : home_of n st = None -> inv ((Some n, k) :: st) w -> inv st (mark_gone n w).
Proof.
  intros N (A & B & C). assert (L : (n < next w)%nat) by (apply B; simpl; rewrite Nat.eqb_refl; discriminate).
  repeat split; simpl.
  - intros H. unfold is_on_stack in H. simpl in H. apply andb_true_iff in H as [H1 H2].
    rewrite negb_orb in H2. apply andb_true_iff in H2 as [H2 H3].
    assert (S : is_on_stack m w = true) by (unfold is_on_stack; rewrite H1, H3; reflexivity).
    apply A in S. simpl in S. destruct (Nat.eqb m n); [discriminate|exact S].
  - intros H. assert (m <> n) by congruence.
    assert (S : is_on_stack m w = true) by (apply A; simpl; destruct (Nat.eqb_spec m n); [contradiction|exact H]).
    unfold is_on_stack in *. simpl. apply andb_true_iff in S as [S1 S2]. rewrite S1. simpl.
    rewrite negb_orb, S2, andb_true_r. destruct (Nat.eqb_spec m n); [contradiction|reflexivity].
  - intros m H. apply B. simpl. destruct (Nat.eqb m n); [discriminate|exact H].
  - intros m [<-|H]; [exact L|]. apply C. exact H.
Qed.
Lemma inv_start w : start w -> inv [] w.
Proof.
  intros [A B]. unfold inv, is_on_stack. rewrite A, B. simpl. repeat split; try discriminate; try congruence; try contradiction.
Qed.

(** ** Loading *)
Lemma text_eqb_true a b : text_eqb a b = true <-> a = b.
Proof. unfold text_eqb. destruct (list_eq_dec ascii_dec a b); split; congruence. Qed.
Lemma load_first name paths w :
  load_class false name paths w =
  match first_file paths with
  | None => (w, inl false)
  | Some (Named c) => if text_eqb name c then (w, inl true) else (put true (mismatch name c) w, inr (RExit 1))
  | Some (Wrong r) => (w, inr (RParse r))
  | Some Absent => (w, inl false)
  end.
Proof. induction paths as [|[|r|c] paths IH]; simpl; auto. Qed.
Lemma first_not_absent paths : first_file paths <> Some Absent.
Proof. induction paths as [|[|r|c] paths IH]; simpl; congruence. Qed.

(** ** The run on Python's stack is the run on the stack of activations *)
Definition outcome (i : kind) (p : prog) (w : world) (st : list frame) (w1 : world) (r : option value + raised) (ws : list (bool * text)) : Prop :=
  match r with
  | inl v => inv st w1 /\ (forall ws' f n', ends (next w1) (PRet v) st ws' f n' -> ends (next w) p st (ws ++ ws') f n')
  | inr (RReturn m v) =>
      inv st w1 /\ home_of m st <> None /\
      (forall k st' ws' f n', home_of m st = Some (k, st') -> ends (next w1) (k v) st' ws' f n' -> ends (next w) p st (ws ++ ws') f n')
  | inr (RExit z) => (i = Ast -> inv st w1) /\ ends (next w) p st ws (Exits z) (next w1)
  | inr (RParse e) => (i = Ast -> inv st w1) /\ ends (next w) p st ws (SyntaxError e) (next w1)
  | inr (ROther e msg) => (i = Ast -> inv st w1) /\ ends (next w) p st ws (Failed e msg) (next w1)
  end.

Lemma run_ends i p : forall w w1 r st, run i false p w = (w1, r) -> inv st w ->
  exists ws, shows w1 w ws /\ outcome i p w st w1 r ws.
Proof.
  induction p as [v|err t k IH|arg k IH|e msg|pr|m v esc IH|body IHb k IH|body IHb k IH|name paths k IH];
    intros w w1 r st E I; cbn [run] in E.
  - injection E as <- <-. exists []. split; [apply shows_refl|]. split; [exact I|]. intros; exact H.
  - destruct (IH _ _ _ st E (inv_put err t st w I)) as (ws & S & O). exists ((err, t) :: ws).
    split; [exact (shows_trans _ _ _ _ _ (shows_put err t w) S)|].
    unfold outcome in *. rewrite next_put in O.
    destruct r as [v|[z|e|m v|e msg]].
    + destruct O as [A B]. split; [exact A|]. intros. simpl. constructor. apply B. exact H.
    + destruct O as [A B]. split; [exact A|]. constructor. exact B.
    + destruct O as [A B]. split; [exact A|]. constructor. exact B.
    + destruct O as (A & B & C). split; [exact A|]; split; [exact B|]. intros. simpl. constructor. eapply C; eassumption.
    + destruct O as [A B]. split; [exact A|]. constructor. exact B.
  - assert (Hx : (exists z, arg = VInt z) \/ (forall z, arg <> VInt z)).
    { destruct arg; try (right; intros ? ?; discriminate). left; eauto. }
    destruct Hx as [[z ->]|N].
    + simpl in E. injection E as <- <-. exists []. split; [apply shows_refl|]. split; [auto|constructor].
    + assert (Q : exit_primitive false arg w = (w, inr (ROther AttributeError no_attribute)))
        by (destruct arg; try reflexivity; exfalso; eapply N; reflexivity).
      rewrite Q in E. injection E as <- <-. exists []. split; [apply shows_refl|]. split; [auto|constructor; exact N].
  - injection E as <- <-. exists []. split; [apply shows_refl|]. split; [auto|constructor].
  - injection E as <- <-. exists []. split; [apply shows_refl|]. split; [auto|constructor].
  - destruct (is_on_stack m w) eqn:S.
    + injection E as <- <-. exists []. split; [apply shows_refl|]. split; [exact I|].
      split; [apply (proj1 I); exact S|]. intros. simpl. eapply E_return; eassumption.
    + assert (N : home_of m st = None).
      { destruct (home_of m st) eqn:Q; [|reflexivity]. exfalso.
        assert (is_on_stack m w = true) by (apply (proj1 I); rewrite Q; discriminate). congruence. }
      destruct (IH _ _ _ st E I) as (ws & Sh & O). exists ws. split; [exact Sh|].
      unfold outcome in *. destruct r as [v'|[z|e|m' v'|e msg]].
      * destruct O as [A B]. split; [exact A|]. intros. apply E_escaped; [exact N|]. apply B. exact H.
      * destruct O as [A B]. split; [exact A|]. apply E_escaped; assumption.
      * destruct O as [A B]. split; [exact A|]. apply E_escaped; assumption.
      * destruct O as (A & B & C). split; [exact A|]; split; [exact B|]. intros. apply E_escaped; [exact N|]. eapply C; eassumption.
      * destruct O as [A B]. split; [exact A|]. apply E_escaped; assumption.
  - destruct (run i false body w) as [wb rb] eqn:Eb.
    destruct (IHb _ _ _ ((None, k) :: st) Eb (proj2 (inv_call k st w) I)) as (ws & S & O).
    destruct rb as [v|rb].
    + destruct O as [A B]. apply (proj1 (inv_call k st wb)) in A.
      destruct (IH v _ _ _ st E A) as (ws2 & S2 & O2). exists (ws ++ ws2).
      split; [exact (shows_trans _ _ _ _ _ S S2)|].
      unfold outcome in *. destruct r as [v'|[z|e|m' v'|e msg]].
      * destruct O2 as [A2 B2]. split; [exact A2|]. intros. rewrite <- app_assoc. apply E_call. apply B. apply E_answer. apply B2. exact H.
      * destruct O2 as [A2 B2]. split; [exact A2|]. apply E_call. apply B. apply E_answer. exact B2.
      * destruct O2 as [A2 B2]. split; [exact A2|]. apply E_call. apply B. apply E_answer. exact B2.
      * destruct O2 as (A2 & B2 & C2). split; [exact A2|]; split; [exact B2|]. intros. rewrite <- app_assoc. apply E_call.
        apply B. apply E_answer. eapply C2; eassumption.
      * destruct O2 as [A2 B2]. split; [exact A2|]. apply E_call. apply B. apply E_answer. exact B2.
    + injection E as <- <-. exists ws. split; [exact S|].
      unfold outcome in *. destruct rb as [z|e|m' v'|e msg].
      * destruct O as [A B]. split; [intros Q; apply (proj1 (inv_call k st wb)); auto|]. apply E_call. exact B.
      * destruct O as [A B]. split; [intros Q; apply (proj1 (inv_call k st wb)); auto|]. apply E_call. exact B.
      * destruct O as (A & B & C). apply (proj1 (inv_call k st wb)) in A. simpl in B, C.
        split; [exact A|]; split; [exact B|]. intros. apply E_call. eapply C; eassumption.
      * destruct O as [A B]. split; [intros Q; apply (proj1 (inv_call k st wb)); auto|]. apply E_call. exact B.
  - destruct (run i false (body (next w)) (fresh w)) as [wb rb] eqn:Eb.
    assert (N : home_of (next w) st = None).
    { destruct (home_of (next w) st) eqn:Q; [|reflexivity]. exfalso.
      assert ((next w < next w)%nat) by (apply (proj1 (proj2 I)); rewrite Q; discriminate). lia. }
    destruct (IHb _ _ _ _ ((Some (next w), k) :: st) Eb (inv_fresh k st w I)) as (ws & S & O).
    assert (S' : shows wb w ws) by (destruct S; split; assumption).
    assert (Sg : shows (mark_gone (next w) wb) w ws) by (destruct S; split; assumption).
    assert (go : forall v wk, run i false (k v) wk = (w1, r) -> shows wk w ws -> inv st wk ->
      (forall ws' f n', ends (next wk) (k v) st ws' f n' -> ends (next w) (PHome body k) st (ws ++ ws') f n') ->
      exists ws, shows w1 w ws /\ outcome i (PHome body k) w st w1 r ws).
    { intros v wk Ek Sk Ik B. destruct (IH v _ _ _ st Ek Ik) as (ws2 & S2 & O2). exists (ws ++ ws2).
      split; [exact (shows_trans _ _ _ _ _ Sk S2)|].
      unfold outcome in *. destruct r as [v'|[z|e|m' v'|e msg]].
      - destruct O2 as [A2 B2]. split; [exact A2|]. intros. rewrite <- app_assoc. apply B. apply B2. exact H.
      - destruct O2 as [A2 B2]. split; [exact A2|]. apply B. exact B2.
      - destruct O2 as [A2 B2]. split; [exact A2|]. apply B. exact B2.
      - destruct O2 as (A2 & B2 & C2). split; [exact A2|]; split; [exact B2|]. intros. rewrite <- app_assoc. apply B. eapply C2; eassumption.
      - destruct O2 as [A2 B2]. split; [exact A2|]. apply B. exact B2. }
    destruct rb as [v|[z|e|m v|e msg]]; cbn [catch] in E.
    + destruct O as [A B]. apply (go v _ E Sg (inv_gone _ _ _ _ N A)).
      intros ws' f n' H. apply E_home. apply B. apply E_answer. exact H.
    + injection E as <- <-. destruct O as [A B]. exists ws.
      split; [destruct i; [exact Sg|exact S']|]. split; [intros ->; apply (inv_gone _ k); auto|].
      apply E_home. destruct i; exact B.
    + injection E as <- <-. destruct O as [A B]. exists ws.
      split; [destruct i; [exact Sg|exact S']|]. split; [intros ->; apply (inv_gone _ k); auto|].
      apply E_home. destruct i; exact B.
    + destruct O as (A & B & C). destruct (Nat.eqb m (next w)) eqn:Em.
      * apply (go v _ E Sg (inv_gone _ _ _ _ N A)). intros ws' f n' H. apply E_home. apply (C k st).
        { simpl. rewrite Em. reflexivity. } exact H.
      * injection E as <- <-. exists ws. split; [exact Sg|]. simpl in B, C. rewrite Em in B, C.
        split; [exact (inv_gone _ _ _ _ N A)|]. split; [exact B|]. intros. apply E_home. eapply C; eassumption.
    + injection E as <- <-. destruct O as [A B]. exists ws.
      split; [destruct i; [exact Sg|exact S']|]. split; [intros ->; apply (inv_gone _ k); auto|].
      apply E_home. destruct i; exact B.
  - rewrite load_first in E. destruct (first_file paths) as [[|fr|c]|] eqn:F.
    + exfalso. exact (first_not_absent _ F).
    + injection E as <- <-. exists []. split; [apply shows_refl|]. split; [auto|]. apply E_wrong. exact F.
    + destruct (text_eqb name c) eqn:Q.
      * apply text_eqb_true in Q. subst c. destruct (IH true _ _ _ st E I) as (ws & S & O). exists ws. split; [exact S|].
        unfold outcome in *. destruct r as [v'|[z|e|m' v'|e msg]].
        -- destruct O as [A B]. split; [exact A|]. intros. apply E_found; [exact F|]. apply B. exact H.
        -- destruct O as [A B]. split; [exact A|]. apply E_found; assumption.
        -- destruct O as [A B]. split; [exact A|]. apply E_found; assumption.
        -- destruct O as (A & B & C). split; [exact A|]; split; [exact B|]. intros. apply E_found; [exact F|]. eapply C; eassumption.
        -- destruct O as [A B]. split; [exact A|]. apply E_found; assumption.
      * injection E as <- <-. exists [(true, mismatch name c)]. split; [exact (shows_put true _ w)|].
        split; [intros _; exact (inv_put true (mismatch name c) st w I)|]. apply E_other_name; [exact F|].
        intros ->. assert (text_eqb c c = true) by (apply text_eqb_true; reflexivity). congruence.
    + destruct (IH false _ _ _ st E I) as (ws & S & O). exists ws. split; [exact S|].
      unfold outcome in *. destruct r as [v'|[z|e|m' v'|e msg]].
      * destruct O as [A B]. split; [exact A|]. intros. apply E_not_found; [exact F|]. apply B. exact H.
      * destruct O as [A B]. split; [exact A|]. apply E_not_found; assumption.
      * destruct O as [A B]. split; [exact A|]. apply E_not_found; assumption.
      * destruct O as (A & B & C). split; [exact A|]; split; [exact B|]. intros. apply E_not_found; [exact F|]. eapply C; eassumption.
      * destruct O as [A B]. split; [exact A|]. apply E_not_found; assumption.
Qed.

(** ** There is only one way to end *)
Lemma ends_det n p st ws f n' : ends n p st ws f n' -> forall ws2 f2 n2, ends n p st ws2 f2 n2 -> ws2 = ws /\ f2 = f /\ n2 = n'.
Proof.
  induction 1; intros ws2 f2 n2 H2; inversion H2; subst; try (repeat split; congruence);
    try (match goal with H : forall z, VInt ?y <> VInt z |- _ => exfalso; exact (H y eq_refl) end);
    try (match goal with H : forall z, ?a <> VInt z |- _ => exfalso; eapply H; reflexivity end);
    try congruence;
    try (edestruct IHends as (? & ? & ?); [eassumption|subst; repeat split; congruence]).
  rewrite H in H10. injection H10 as <- <-. apply IHends. assumption.
Qed.

(** ** Programs *)
Definition fin_of (r : option value + raised) : option fin :=
  match r with
  | inl v => Some (Finished v)
  | inr (RExit z) => Some (Exits z)
  | inr (RParse e) => Some (SyntaxError e)
  | inr (ROther e msg) => Some (Failed e msg)
  | inr (RReturn _ _) => None
  end.
Lemma run_program i p w w1 r : run i false p w = (w1, r) -> inv [] w ->
  exists ws f, shows w1 w ws /\ ends (next w) p [] ws f (next w1) /\ fin_of r = Some f /\
               (i = Ast \/ (exists v, r = inl v) -> inv [] w1).
Proof.
  intros E I. destruct (run_ends i p w w1 r [] E I) as (ws & S & O).
  destruct r as [v|[z|e|m v|e msg]]; cbn [outcome] in O.
  - destruct O as [A B]. exists ws, (Finished v). split; [exact S|]. split.
    { rewrite <- (app_nil_r ws). apply B. constructor. }
    split; [reflexivity|]. intros _; exact A.
  - destruct O as [A B]. exists ws, (Exits z). split; [exact S|]. split; [exact B|]. split; [reflexivity|].
    intros [Q|[v Q]]; [auto|discriminate].
  - destruct O as [A B]. exists ws, (SyntaxError e). split; [exact S|]. split; [exact B|]. split; [reflexivity|].
    intros [Q|[v Q]]; [auto|discriminate].
  - destruct O as (_ & B & _). simpl in B. congruence.
  - destruct O as [A B]. exists ws, (Failed e msg). split; [exact S|]. split; [exact B|]. split; [reflexivity|].
    intros [Q|[v' Q]]; [auto|discriminate].
Qed.
Lemma run_known i p w w1 r ws f n' : run i false p w = (w1, r) -> inv [] w -> ends (next w) p [] ws f n' ->
  shows w1 w ws /\ n' = next w1 /\ fin_of r = Some f /\ (i = Ast \/ (exists v, r = inl v) -> inv [] w1).
Proof.
  intros E I H. destruct (run_program i p w w1 r E I) as (ws2 & f2 & S & B & F & J).
  destruct (ends_det _ _ _ _ _ _ H _ _ _ B) as (-> & -> & <-). auto.
Qed.

Lemma os_status_ok z : status (Exits z) (os_status z).
Proof.
  unfold os_status. destruct (Z.leb_spec (- 2 ^ 63) z); destruct (Z.ltb_spec z (2 ^ 63)); cbn [andb];
    try (apply S_exit; split; assumption); change ((-1) mod 256) with 255; apply S_exit_big; intros [A B]; lia.
Qed.
Lemma os_status_0 : os_status 0 = 0. Proof. reflexivity. Qed.
Lemma os_status_1 : os_status 1 = 1. Proof. reflexivity. Qed.

(** The interpreter in use and the way it is run *)
Definition running (built : option kind) (env : option string) : option kind :=
  match built with Some i => Some i | None => interp_type env end.

(** What main ends with, as status and last words. *)
Definition finishes tb (tr : bool) (m : world * (option value + raised)) : world * Z :=
  match m with
  | (w, inl _) => (w, 0)
  | (w, inr (RExit z)) => (w, os_status z)
  | (w, inr (RParse (inl t))) => (put true (if tr then t else t ++ nl) w, 1)
  | (w, inr (RParse (inr e))) => (put true (tb (ROther e [])) w, 1)
  | (w, inr r) => (put true (if tr then str "ERROR: " ++ message r ++ str " thrown during execution." ++ nl else tb r) w, 1)
  end.
Lemma process_finishes tb built env args boot init lines w i :
  running built env = Some i ->
  process tb built env args boot init lines w =
  finishes tb (is_translated built) (interpret tb (is_translated built) i false (handle_arguments false args) boot init lines w).
Proof.
  unfold running, process, is_translated. intros R. destruct built as [j|].
  - injection R as ->. unfold entry_point, main_, exit_. destruct (interpret _ _ _ _ _ _ _ _ _) as [w' [v|[z|[t|e]|m v|e msg]]]; reflexivity.
  - rewrite R. unfold main_py, main_, exit_. destruct (interpret _ _ _ _ _ _ _ _ _) as [w' [v|[z|[t|e]|m v|e msg]]]; reflexivity.
Qed.
Lemma finishes_ok tb tr w w1 r ws f : shows w1 w ws -> fin_of r = Some f ->
  status f (snd (finishes tb tr (w1, r))) /\ shows (fst (finishes tb tr (w1, r))) w (ws ++ last_words tr tb f).
Proof.
  intros S F. destruct r as [v|[z|[t|e]|m v|e msg]]; try discriminate F; injection F as <-; cbn [finishes fst snd last_words message];
    (split; [first [constructor | apply os_status_ok]|]); rewrite ?app_nil_r; try exact S;
    (eapply shows_trans; [exact S|apply shows_put]).
Qed.

Lemma interpret_program tb tr i boot init lines w cp d a rest :
  interpret tb tr i false (ARun cp d (a :: rest)) boot init lines w = run i false (PCall boot (fun _ => init (a :: rest))) w.
Proof. cbn [interpret run]. destruct (run i false boot w) as [w' [v|r]]; reflexivity. Qed.

Lemma program_ends tb built env args boot init lines w i cp d a rest :
  running built env = Some i -> handle_arguments false args = ARun cp d (a :: rest) -> start w ->
  exists ws f n', ends 0 (PCall boot (fun _ => init (a :: rest))) [] ws f n' /\
    status f (snd (process tb built env args boot init lines w)) /\
    shows (fst (process tb built env args boot init lines w)) w (ws ++ last_words (is_translated built) tb f).
Proof.
  intros R A S. rewrite (process_finishes _ _ _ _ _ _ _ _ _ R), A, interpret_program.
  destruct (run i false (PCall boot (fun _ => init (a :: rest))) w) as [w1 r] eqn:E.
  destruct (run_program _ _ _ _ _ E (inv_start _ S)) as (ws & f & Sh & En & F & _).
  exists ws, f, (next w1). rewrite (proj1 S) in En. split; [exact En|]. apply finishes_ok; assumption.
Qed.
Lemma program_known tb built env args boot init lines w i cp d a rest ws f n' :
  running built env = Some i -> handle_arguments false args = ARun cp d (a :: rest) -> start w ->
  ends 0 (PCall boot (fun _ => init (a :: rest))) [] ws f n' ->
    status f (snd (process tb built env args boot init lines w)) /\
    shows (fst (process tb built env args boot init lines w)) w (ws ++ last_words (is_translated built) tb f).
Proof.
  intros R A S H. destruct (program_ends tb built env args boot init lines w i cp d a rest R A S) as (ws2 & f2 & n2 & H2 & X).
  destruct (ends_det _ _ _ _ _ _ H _ _ _ H2) as (-> & -> & _). exact X.
Qed.
Lemma boot_stops tb built env args boot init lines w i cp d rest ws f n' :
  running built env = Some i -> handle_arguments false args = ARun cp d rest -> start w ->
  ends 0 boot [] ws f n' -> (forall v, f <> Finished v) ->
    status f (snd (process tb built env args boot init lines w)) /\
    shows (fst (process tb built env args boot init lines w)) w (ws ++ last_words (is_translated built) tb f).
Proof.
  intros R A S H N. rewrite (process_finishes _ _ _ _ _ _ _ _ _ R), A. cbn [interpret].
  destruct (run i false boot w) as [w1 r] eqn:E.
  rewrite <- (proj1 S) in H. destruct (run_known _ _ _ _ _ _ _ _ E (inv_start _ S) H) as (Sh & _ & F & _).
  destruct r as [v|r]; [injection F as <-; exfalso; eapply N; reflexivity|].
  apply finishes_ok; assumption.
Qed.

(** ** Sessions *)
Lemma status_det f a b : status f a -> status f b -> a = b.
Proof. intros A B. destruct A; inversion B; subst; try reflexivity; contradiction. Qed.

Lemma caught_put (tr : bool) tb e msg w :
  shows (put true (str "Caught exception: " ++ msg ++ nl) (if tr then w else put true (tb (ROther e msg)) w)) w (caught tr tb e msg).
Proof.
  unfold caught. destruct tr.
  - apply shows_put.
  - exact (shows_trans _ _ _ _ _ (shows_put true (tb (ROther e msg)) w) (shows_put true _ _)).
Qed.
Lemma inv_caught (tr : bool) tb e msg st w :
  inv st w -> inv st (put true (str "Caught exception: " ++ msg ++ nl) (if tr then w else put true (tb (ROther e msg)) w)).
Proof. intros I. apply inv_put. destruct tr; [exact I|apply inv_put; exact I]. Qed.
Lemma next_caught (tr : bool) tb e msg w :
  next (put true (str "Caught exception: " ++ msg ++ nl) (if tr then w else put true (tb (ROther e msg)) w)) = next w.
Proof. destruct tr; rewrite !next_put; reflexivity. Qed.

Lemma loop_session tr fl tb i n ls it ws f :
  i = Ast \/ fl = false ->
  session tr fl tb n ls it ws f -> forall w, next w = n -> inv [] w ->
  let (w1, r) := shell_loop tb tr i false ls it w in shows w1 w ws /\ fin_of r = Some f.
Proof.
  intros K H. induction H; intros w N I; cbn [shell_loop].
  - split; [apply shows_refl|reflexivity].
  - split; [apply shows_refl|reflexivity].
  - apply IHsession; assumption.
  - cbn [handle message].
    set (w2 := put true _ _).
    assert (X : shows w2 w (caught tr tb e msg)) by apply caught_put.
    assert (Y : inv [] w2) by (apply inv_caught; exact I).
    assert (Z : next w2 = n) by (unfold w2; rewrite next_caught; exact N).
    specialize (IHsession w2 Z Y). destruct (shell_loop tb tr i false ls it w2) as [w3 r3]. destruct IHsession as [A B].
    split; [exact (shows_trans _ _ _ _ _ X A)|exact B].
  - destruct (run i false (p it) w) as [w1 r] eqn:E. subst n.
    destruct (run_known _ _ _ _ _ _ _ _ E I H) as (Sh & Nx & F & J).
    destruct r as [v2|[z|r|m v2|e msg]]; try discriminate F. injection F as ->.
    specialize (IHsession w1 (eq_sym Nx) (J (or_intror (ex_intro _ v eq_refl)))).
    destruct (shell_loop tb tr i false ls v w1) as [w3 r3]. destruct IHsession as [A B].
    split; [exact (shows_trans _ _ _ _ _ Sh A)|exact B].
  - destruct (run i false (p it) w) as [w1 r] eqn:E. subst n.
    destruct (run_known _ _ _ _ _ _ _ _ E I H) as (Sh & Nx & F & J).
    destruct r as [v2|[z2|r|m v2|e msg]]; try discriminate F. injection F as ->.
    cbn [handle]. split; [exact Sh|reflexivity].
  - destruct (run i false (p it) w) as [w1 r] eqn:E. subst n.
    destruct (run_known _ _ _ _ _ _ _ _ E I H0) as (Sh & Nx & F & J).
    destruct r as [v2|[z2|r|m v2|e msg]]; try discriminate F. injection F as ->.
    destruct K as [K|K]; [|congruence]. cbn [handle].
    specialize (IHsession (put true (t ++ nl) w1)). rewrite next_put in IHsession.
    specialize (IHsession (eq_sym Nx) (inv_put _ _ _ _ (J (or_introl K)))).
    destruct (shell_loop tb tr i false ls it (put true (t ++ nl) w1)) as [w3 r3]. destruct IHsession as [A B].
    split; [|exact B]. apply (shows_trans _ _ _ _ _ Sh). exact (shows_trans _ _ _ _ _ (shows_put true (t ++ nl) w1) A).
  - destruct (run i false (p it) w) as [w1 r] eqn:E. subst n.
    destruct (run_known _ _ _ _ _ _ _ _ E I H) as (Sh & Nx & F & J).
    destruct r as [v2|[z2|r|m v2|e2 msg]]; try discriminate F. injection F as ->.
    cbn [handle]. split; [exact Sh|reflexivity].
  - destruct (run i false (p it) w) as [w1 r] eqn:E. subst n.
    destruct (run_known _ _ _ _ _ _ _ _ E I H0) as (Sh & Nx & F & J).
    destruct r as [v2|[z2|r|m v2|e2 msg2]]; try discriminate F. injection F as -> ->.
    destruct K as [K|K]; [|congruence]. cbn [handle message].
    set (w2 := put true _ _).
    assert (X : shows w2 w1 (caught tr tb e msg)) by apply caught_put.
    assert (Y : inv [] w2) by (apply inv_caught; apply J; left; exact K).
    assert (Z : next w2 = n') by (unfold w2; rewrite next_caught; symmetry; exact Nx).
    specialize (IHsession w2 Z Y). destruct (shell_loop tb tr i false ls it w2) as [w3 r3]. destruct IHsession as [A B].
    split; [|exact B]. exact (shows_trans _ _ _ _ _ Sh (shows_trans _ _ _ _ _ X A)).
Qed.

Lemma session_exists tr tb ls : forall n it, exists ws f, session tr true tb n ls it ws f.
Proof.
  assert (T : forall n p, exists ws f n', ends n p [] ws f n').
  { intros n p.
    destruct (run Ast false p (World [] [] None n (seq 0 n))) as [w1 r] eqn:E.
    assert (I : inv [] (World [] [] None n (seq 0 n))).
    { unfold inv, is_on_stack; simpl. repeat split.
      - intros H. exfalso. apply andb_true_iff in H as [H1 H2]. apply Nat.ltb_lt in H1.
        assert (existsb (Nat.eqb m) (seq 0 n) = true).
        { apply existsb_exists. exists m. split; [apply in_seq; lia|apply Nat.eqb_refl]. }
        rewrite H in H2. discriminate.
      - congruence.
      - congruence.
      - intros m H. apply in_seq in H. lia. }
    destruct (run_program _ _ _ _ _ E I) as (ws & f & _ & En & _). exists ws, f, (next w1). exact En. }
  induction ls as [|l ls IH]; intros n it.
  - exists [], (Finished it). constructor.
  - destruct l as [| |p|e msg].
    + exists [], (Finished it). constructor.
    + destruct (IH n it) as (ws & f & H). exists ws, f. constructor. exact H.
    + destruct (T n (p it)) as (ws & [v|z|[t|e]|e msg] & n' & H).
      * destruct (IH n' v) as (ws' & f' & H'). eexists _, _. eapply L_value; eassumption.
      * eexists _, _. eapply L_exit; eassumption.
      * destruct (IH n' it) as (ws' & f' & H'). eexists _, _. eapply L_syntax; [reflexivity|eassumption|eassumption].
      * eexists _, _. eapply L_unreportable; eassumption.
      * destruct (IH n' it) as (ws' & f' & H'). eexists _, _. eapply L_failed; [reflexivity|eassumption|eassumption].
    + destruct (IH n it) as (ws & f & H). eexists _, _. apply L_garbled. exact H.
Qed.

Lemma shell_session tb built env args boot init lines w i cp d fl ws0 v n0 ws f :
  running built env = Some i -> handle_arguments false args = ARun cp d [] -> start w ->
  i = Ast \/ fl = false ->
  ends 0 boot [] ws0 (Finished v) n0 ->
  session (is_translated built) fl tb n0 lines (Some VNil) ws f ->
    status f (snd (process tb built env args boot init lines w)) /\
    shows (fst (process tb built env args boot init lines w)) w (ws0 ++ (false, greeting) :: ws ++ last_words (is_translated built) tb f).
Proof.
  intros R A S K B H. rewrite (process_finishes _ _ _ _ _ _ _ _ _ R), A. cbn [interpret].
  destruct (run i false boot w) as [w1 r] eqn:E.
  rewrite <- (proj1 S) in B. destruct (run_known _ _ _ _ _ _ _ _ E (inv_start _ S) B) as (Sh & Nx & F & J).
  destruct r as [v2|[z2|r|m v2|e2 msg2]]; try discriminate F. injection F as ->.
  pose proof (loop_session _ _ _ _ _ _ _ _ _ K H (put false greeting w1)) as L. rewrite next_put in L.
  specialize (L (eq_sym Nx) (inv_put _ _ _ _ (J (or_intror (ex_intro _ v eq_refl))))).
  destruct (shell_loop tb (is_translated built) i false lines (Some VNil) (put false greeting w1)) as [w2 r2].
  destruct L as [L1 L2].
  assert (X : shows w2 w ((ws0 ++ [(false, greeting)]) ++ ws)).
  { eapply shows_trans; [eapply shows_trans; [exact Sh|apply shows_put]|exact L1]. }
  destruct (finishes_ok tb (is_translated built) w w2 r2 _ f X L2) as [P Q]. split; [exact P|].
  rewrite <- !app_assoc in Q. exact Q.
Qed.

(** ** From anywhere *)
Lemma inside_ends fs : forall p n st ws f (D : forall n st, exists n', ends n p st ws f n'), exists n', ends n (inside fs p) st ws f n'.
Proof.
  induction fs as [|[k|k] fs IH]; intros p n st ws f D; cbn [inside fold_right].
  - apply D.
  - destruct (IH p n ((None, k) :: st) ws f D) as [n' H]. exists n'. constructor. exact H.
  - destruct (IH p (S n) ((Some n, k) :: st) ws f D) as [n' H]. exists n'. constructor. exact H.
Qed.
Lemma writing_ends ws : forall p n st ws' f n', ends n p st ws' f n' -> ends n (writing ws p) st (ws ++ ws') f n'.
Proof. induction ws as [|[b t] ws IH]; intros; [exact H|]. simpl. constructor. apply IH. exact H. Qed.
(** An answer on one more activation below *)
Lemma ends_below n p st ws f n' : ends n p st ws f n' ->
  forall v ws2 f2 n2 k, f = Finished v -> ends n' (k v) [] ws2 f2 n2 -> ends n p (st ++ [(None, k)]) (ws ++ ws2) f2 n2.
Proof.
  assert (H1 : forall m st x, home_of m (st ++ [(None, x)]) =
     match home_of m st with Some (k', st') => Some (k', st' ++ [(None, x)]) | None => None end).
  { intros m st0 x. induction st0 as [|[[h|] k0] st0 IH]; simpl; auto. destruct (Nat.eqb m h); auto. }
  induction 1; intros v0 ws2 f2 n2 k0 Q B; try discriminate Q; simpl.
  - injection Q as ->. constructor. exact B.
  - constructor. eapply IHends; eassumption.
  - constructor. eapply IHends; eassumption.
  - eapply E_return; [rewrite H1, H; reflexivity|]. eapply IHends; eassumption.
  - eapply E_escaped; [rewrite H1, H; reflexivity|]. eapply IHends; eassumption.
  - constructor. apply (IHends _ _ _ _ _ Q B).
  - constructor. apply (IHends _ _ _ _ _ Q B).
  - eapply E_found; [exact H|]. eapply IHends; eassumption.
  - eapply E_not_found; [exact H|]. eapply IHends; eassumption.
Qed.
Lemma after_boot boot ws0 v n0 p ws f n' : ends 0 boot [] ws0 (Finished v) n0 -> ends n0 p [] ws f n' ->
  ends 0 (PCall boot (fun _ => p)) [] (ws0 ++ ws) f n'.
Proof. intros B H. constructor. exact (ends_below _ _ _ _ _ _ B v ws f n' (fun _ => p) eq_refl H). Qed.
Lemma uses_running built env i : uses built env i -> running built env = Some i.
Proof. intros H. destruct H; reflexivity. Qed.
Lemma not_usable built env : (forall i, ~ uses built env i) -> built = None /\ interp_type env = None.
Proof.
  intros H. destruct built as [i|]; [exfalso; exact (H i (U_built i env))|]. split; [reflexivity|].
  destruct env as [s|]; [|reflexivity]. simpl.
  destruct (String.eqb_spec s "AST"); [subst; exfalso; exact (H _ U_ast)|].
  destruct (String.eqb_spec s "BC"); [subst; exfalso; exact (H _ U_bc)|]. reflexivity.
Qed.
