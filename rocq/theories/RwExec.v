From Coq Require Import ZArith Bool String Ascii List Lia.
From Verif Require Import Base LexModel ParseModel BcModel BcInterp AstModel RwModel RwSpec RwProofs.
Import ListNotations.
Open Scope nat_scope.
Open Scope list_scope.

Lemma forall2_length {A B} {R : A -> B -> Prop} {l m} : Forall2 R l m -> length l = length m.
Proof. intros H. induction H; cbn; auto. Qed.

Section RwExec.
Context {S X K : Type}.
Variable V : vmachine S X.
Variable kind_of : text -> list value -> option K.
Variable fits : K -> list value -> bool.
Variable bodies : list node.
Variable root : nat -> option id.
Hypothesis Law : lawful V.
Notation sh := (S * heap K)%type.
Notation le := (le V).
Notation repr := (repr V kind_of).
Notation holds := (holds V kind_of).
Notation lholds := (lholds V kind_of).
Notation ext := (ext V kind_of).
Notation keeps := (keeps V kind_of).
Notation fine := (fine V kind_of).
(** A specialized message is given a receiver or arguments it does not take. *)
Definition refused : Prop := exists sel vs kind ws, kind_of sel vs = Some kind /\ fits kind ws = false.

Definition bok (x : sh) : Prop := forall l,
  match nth_error bodies l with
  | Some nd => exists r, root l = Some r /\ holds x [nd] r
  | None => root l = None
  end.
Definition inv (x : sh) : Prop := wf (snd x) /\ bok x.
Lemma bok_ext : forall x x', ext x x' -> bok x -> bok x'.
Proof.
  intros x x' E B l. specialize (B l). destruct (nth_error bodies l); auto.
  destruct B as (r & R & Hr). exists r. split; auto. apply (e_holds _ _ _ _ E), Hr.
Qed.
Definition sim {Y A} (x : sh) (o : out S Y A) (o' : out sh Y A) : Prop :=
  match o' with
  | Done a x' => o = Done a (fst x') /\ ext x x' /\ wf (snd x')
  | Retn v x' => o = Retn v (fst x') /\ ext x x' /\ wf (snd x')
  | Abrupt e x' => o = Abrupt e (fst x') /\ ext x x' /\ wf (snd x')
  | Hang => o = Hang
  | Stuck => o = Stuck \/ refused
  end.
Lemma sim_trans : forall Y A x y (o : out S Y A) o', ext x y -> sim y o o' -> sim x o o'.
Proof.
  intros Y A x y o [] E H; cbn in *; auto; destruct H as (-> & F & W); split; auto; split; auto;
    eapply ext_trans; eauto.
Qed.
Lemma sim_bind : forall Y A B x (o : out S Y A) o' (f : A -> S -> out S Y B) f', inv x -> sim x o o' ->
  (forall a x', ext x x' -> inv x' -> sim x' (f a (fst x')) (f' a x')) -> sim x (bind o f) (bind o' f').
Proof.
  intros Y A B x o o' f f' (W & Bk) H F. destruct o' as [a x'|v x'|e x'| |]; cbn in *.
  - destruct H as (-> & E & W'). cbn. eapply sim_trans; [exact E|]. apply F; auto. split; auto. eapply bok_ext; eauto.
  - destruct H as (-> & E & W'). cbn. auto.
  - destruct H as (-> & E & W'). cbn. auto.
  - rewrite H. reflexivity.
  - destruct H as [-> | R]; auto.
Qed.
Lemma ext_state : forall s s' H, le s s' -> ext (s, H) (s', H).
Proof.
  intros s s' H L. apply keeps_ext. constructor; cbn [fst snd]; auto.
  - intros i h N. exists h, (fun c => c), (fun c => c). rewrite !map_id. repeat split; auto; try apply fine_id. eauto.
  - intros a I. split; auto. exists (fun c => c). rewrite map_id. split; auto. apply fine_id.
Qed.
Lemma sim_done : forall Y A x (a : A), wf (snd x) -> @sim Y A x (Done a (fst x)) (Done a x).
Proof. intros. cbn. split; auto. split; auto. apply ext_refl. Qed.
Lemma sim_abrupt : forall Y A x (e : Y), wf (snd x) -> @sim Y A x (Abrupt e (fst x)) (Abrupt e x).
Proof. intros. cbn. split; auto. split; auto. apply ext_refl. Qed.

Section Run.
Variable ar : nat -> S -> out S (astop X) value.
Variable hr : nat -> sh -> out sh (astop X) value.
Hypothesis HR : forall l x, inv x -> sim x (ar l (fst x)) (hr l x).
Lemma hact_sim : forall A (a : act S X A) s H, grows V s a -> inv (s, H) ->
  sim (s, H) (run_act ar a) (hact hr a H).
Proof.
  intros A. induction a as [o|l s' k IH]; intros s H G I.
  - destruct I as (W & Bk). destruct o; cbn in *; auto; split; auto; split; auto; apply ext_state; auto.
  - cbn [run_act hact grows] in *. destruct G as (G1 & G2).
    assert (E1 : ext (s, H) (s', H)) by (apply ext_state; auto).
    assert (I1 : inv (s', H)) by (destruct I; split; auto; eapply bok_ext; eauto).
    pose proof (HR l (s', H) I1) as Q. cbn [fst] in Q.
    destruct (hr l (s', H)) as [v (s2, H2)|v (s2, H2)|e (s2, H2)| |]; cbn [sim fst snd] in Q.
    1-3: destruct Q as (-> & E2 & W2);
         eapply sim_trans; [eapply ext_trans; eassumption|];
         apply IH; [apply G2, (e_le _ _ _ _ E2) | split; auto; eapply bok_ext; [exact E2 | apply I1]].
    + rewrite Q. reflexivity.
    + destruct Q as [-> | R]; cbn; auto.
Qed.
Lemma ask_sim : forall A (f : S -> act S X A) x, (forall s, grows V s (f s)) -> inv x ->
  sim x (lift (run_act ar (f (fst x)))) (ask hr f x).
Proof.
  intros A f [s H] G I. unfold ask. cbn [fst snd]. pose proof (hact_sim _ (f s) s H (G s) I) as Q.
  destruct (hact hr (f s) H); cbn in *; auto.
  1-3: destruct Q as (-> & E & W); auto.
  - rewrite Q; reflexivity.
  - destruct Q as [-> |]; auto.
Qed.

Notation μ := (machine_of V ar).
Definition execs (n : nat) := fix go (l : list node) (vs : list value) (s : S) : out S (astop X) (list value) :=
  match l with
  | [] => Done vs s
  | x :: l => bind (exec μ x n s) (fun v s => go l (vs ++ [v]) s)
  end.
Definition seqs (n : nat) := fix go (l : list node) (s : S) : out S (astop X) value :=
  match l with
  | [] => Stuck
  | x :: l => match l with [] => exec μ x n s | _ => bind (exec μ x n s) (fun _ s => go l s) end
  end.
Lemma bind_assoc : forall (T Y A B C : Type) (o : out T Y A) (f : A -> T -> out T Y B) (g : B -> T -> out T Y C),
  bind (bind o f) g = bind o (fun a s => bind (f a s) g).
Proof. intros. destruct o; reflexivity. Qed.
Lemma bind_ext : forall (T Y A B : Type) (o : out T Y A) (f g : A -> T -> out T Y B),
  (forall a s, f a s = g a s) -> bind o f = bind o g.
Proof. intros. destruct o; cbn; auto. Qed.
Lemma execs_app : forall n a b vs s, execs n (a ++ b) vs s = bind (execs n a vs s) (fun vs s => execs n b vs s).
Proof.
  intros n. induction a as [|x a IH]; intros b vs s; [reflexivity|]. cbn [app execs]. rewrite bind_assoc.
  apply bind_ext. intros v s'. apply IH.
Qed.

Section Children.
Variable ev : nat -> id -> sh -> out sh (astop X) value.
Variable d : nat.
Hypothesis EV : forall nd, height nd <= d -> forall n i x, inv x -> repr x nd i -> par (snd x) i ->
  sim x (exec μ nd n (fst x)) (ev n i x).

Lemma forall2_nth : forall (x : sh) nds l j nd, Forall2 (repr x) nds l -> nth_error nds j = Some nd ->
  exists c, nth_error l j = Some c /\ repr x nd c.
Proof.
  intros x nds l j nd F. revert j. induction F; intros [|j] N; cbn in *; try discriminate; auto.
  injection N as ->. eauto.
Qed.
Lemma kid_par : forall (H : heap K) i h c, wf H -> node_at H i = Some h -> lonely (h_op h) = false ->
  In c (all_kids H h) -> par H c.
Proof.
  intros H i h c W N L I. unfold all_kids in I. apply in_app_or in I as [I|I].
  - eapply (wf_kids _ W); eauto.
  - unfold elems in I. destruct (h_list h); [|contradiction]. eapply (wf_list _ W); eauto.
Qed.
Lemma ev_child_sim : forall x nds i j nd n, inv x -> holds x nds i -> nth_error nds j = Some nd -> height nd <= d ->
  sim x (exec μ nd n (fst x)) (ev_child ev n i j x).
Proof.
  intros x nds i j nd n I (h & N & L & F) J Ht. destruct (forall2_nth _ _ _ _ _ F J) as (c & C & R).
  unfold ev_child, child. rewrite N, C. apply EV; auto.
  eapply kid_par; [apply I | exact N | exact L | eapply nth_error_In; eauto].
Qed.
Lemma skipn_nth : forall A (l : list A) j x, nth_error l j = Some x -> skipn j l = x :: skipn (Datatypes.S j) l.
Proof.
  induction l; destruct j; intros x E; cbn [nth_error] in E; try discriminate; [injection E as ->; reflexivity|].
  exact (IHl j x E).
Qed.
Lemma ev_kids_sim : forall n i nds cnt j vs x, inv x -> holds x nds i -> Forall (fun nd => height nd <= d) nds ->
  j + cnt <= length nds ->
  sim x (execs n (firstn cnt (skipn j nds)) vs (fst x)) (ev_kids ev n i j cnt vs x).
Proof.
  intros n i nds. induction cnt as [|cnt IH]; intros j vs x I Hd Ht Le.
  - cbn [firstn execs ev_kids]. apply sim_done, I.
  - destruct (nth_error nds j) as [nd|] eqn:E; [|apply nth_error_None in E; lia].
    rewrite (skipn_nth _ _ _ _ E). cbn [firstn execs ev_kids]. apply sim_bind; auto.
    + eapply ev_child_sim; eauto. rewrite Forall_forall in Ht. apply Ht. eapply nth_error_In; eauto.
    + intros v x' E' I'. apply IH; auto; [|lia]. apply (e_holds _ _ _ _ E'), Hd.
Qed.
Lemma ev_list_sim : forall n a nds cnt j vs x, inv x -> lholds x nds a -> Forall (fun nd => height nd <= d) nds ->
  j + cnt = length nds ->
  sim x (execs n (skipn j nds) vs (fst x)) (ev_list ev n a j cnt vs x).
Proof.
  intros n a nds. induction cnt as [|cnt IH]; intros j vs x I Hd Ht Le.
  - rewrite skipn_all2 by lia. apply sim_done, I.
  - destruct (nth_error nds j) as [nd|] eqn:E; [|apply nth_error_None in E; lia].
    rewrite (skipn_nth _ _ _ _ E). cbn [execs ev_list]. destruct Hd as (La & F).
    destruct (forall2_nth _ _ _ _ _ F E) as (c & C & R). rewrite C. apply sim_bind; auto.
    + apply EV; auto; [rewrite Forall_forall in Ht; apply Ht; eapply nth_error_In; eauto|].
      eapply (wf_list _ (proj1 I)). eapply nth_error_In; eauto.
    + intros v x' E' I'. apply IH; auto; [|lia]. apply (e_lholds _ _ _ _ E'). split; auto.
Qed.
Lemma ev_all_sim : forall n i nds x, inv x -> holds x nds i -> Forall (fun nd => height nd <= d) nds ->
  sim x (execs n nds [] (fst x)) (ev_all ev n i x).
Proof.
  intros n i nds x I Hd Ht. pose proof Hd as (h & N & L & F). unfold ev_all. rewrite N.
  set (k := length (h_kids h)).
  assert (Lk : k <= length nds).
  { rewrite (forall2_length F). unfold all_kids. rewrite app_length. subst k. lia. }
  rewrite <- (firstn_skipn k nds) at 1. rewrite execs_app. apply sim_bind; auto.
  - apply (ev_kids_sim n i nds k 0 [] x); auto.
  - intros vs x' E I'. destruct (e_node _ _ _ _ E _ _ N) as (h' & N' & O' & L').
    rewrite N'. destruct (e_holds _ _ _ _ E _ _ Hd) as (h2 & N2 & _ & F2).
    assert (h2 = h') by congruence. subst h2. unfold all_kids in F2.
    apply Forall2_app_inv_r in F2. destruct F2 as (n1 & n2 & F1 & F2 & ->).
    assert (Q : skipn k (n1 ++ n2) = n2).
    { apply forall2_length in F1. subst k. rewrite <- L', <- F1. clear. induction n1; cbn; auto. }
    rewrite Q. unfold elems in F2. destruct (h_list h') as [a|] eqn:EL.
    + apply (ev_list_sim n a n2 _ 0); auto.
      * split; auto. eapply (wf_addr _ (proj1 I')); eauto.
      * apply Forall_app in Ht. apply Ht.
      * rewrite (forall2_length F2). reflexivity.
    + inversion F2; subst. apply sim_done, I'.
Qed.
Lemma ev_seq_sim : forall n i nds cnt j x, inv x -> holds x nds i -> Forall (fun nd => height nd <= d) nds ->
  j + cnt = length nds ->
  sim x (seqs n (skipn j nds) (fst x)) (ev_seq ev n i j cnt x).
Proof.
  intros n i nds. induction cnt as [|cnt IH]; intros j x I Hd Ht Le.
  - rewrite skipn_all2 by lia. cbn. auto.
  - destruct (nth_error nds j) as [nd|] eqn:E; [|apply nth_error_None in E; lia].
    rewrite (skipn_nth _ _ _ _ E). assert (Hn : height nd <= d).
    { rewrite Forall_forall in Ht; apply Ht; eapply nth_error_In; eauto. }
    destruct cnt as [|cnt].
    + rewrite (skipn_all2 nds) by lia. cbn [seqs ev_seq]. eapply ev_child_sim; eauto.
    + destruct (nth_error nds (Datatypes.S j)) as [nd'|] eqn:E'; [|apply nth_error_None in E'; lia].
      specialize (IH (Datatypes.S j)). rewrite (skipn_nth _ _ _ _ E') in *.
      change (seqs n (nd :: nd' :: skipn (Datatypes.S (Datatypes.S j)) nds) (fst x)) with
        (bind (exec μ nd n (fst x)) (fun _ s => seqs n (nd' :: skipn (Datatypes.S (Datatypes.S j)) nds) s)).
      change (ev_seq ev n i j (Datatypes.S (Datatypes.S cnt)) x) with
        (bind (ev_child ev n i j x) (fun _ x => ev_seq ev n i (Datatypes.S j) (Datatypes.S cnt) x)).
      apply sim_bind; auto.
      * eapply ev_child_sim; eauto.
      * intros v x' Ex I'. apply IH; auto; [|lia]. apply (e_holds _ _ _ _ Ex), Hd.
Qed.
Lemma hwhile_sim : forall b i c t n x, inv x -> holds x [c; t] i -> height c <= d -> height t <= d ->
  sim x (while_node μ b n (exec μ c) (exec μ t) (fst x)) (hwhile V ev b n i x).
Proof.
  intros b i c t. induction n as [|n IH]; intros x I Hd Hc Ht; [reflexivity|].
  cbn [while_node hwhile]. apply sim_bind; auto.
  - eapply ev_child_sim; eauto; reflexivity.
  - intros v x' E I'. pose proof (e_holds _ _ _ _ E _ _ Hd) as Hd'. destruct (is_bool b v).
    + apply sim_bind; auto; [eapply ev_child_sim; eauto; reflexivity|].
      intros w x2 E2 I2. apply IH; auto. apply (e_holds _ _ _ _ E2), Hd'.
    + destruct (is_bool (negb b) v); [apply sim_done, I' | apply sim_abrupt, I'].
Qed.
Lemma exec_send : forall sel r l n s, exec μ (NSend sel r l) n s =
  bind (execs n (r :: l) [] s) (fun vs s => lift (run_act ar (v_send V sel vs s))).
Proof. intros. cbn [execs]. rewrite bind_assoc. reflexivity. Qed.
Lemma exec_super : forall sel r l n s, exec μ (NSuper sel r l) n s =
  if v_has_super V sel s then bind (execs n (r :: l) [] s) (fun vs s => lift (run_act ar (v_super V sel vs s)))
  else Abrupt (AX (v_exn V PyException)) s.
Proof. intros. cbn [execs]. rewrite bind_assoc. reflexivity. Qed.

Definition initialized (o : op K) : bool :=
  match o with OReadU _ _ | OWriteU _ _ | OGlobU _ _ | OMsgU _ | OBody => false | _ => true end.
Ltac kid := eapply ev_child_sim; eauto; reflexivity.
Ltac asked := match goal with |- sim ?x _ (ask hr ?f _) => apply (ask_sim _ f x); [intros; apply Law | assumption] end.
Ltac next := let v := fresh "v" in let x' := fresh "x'" in let E := fresh "E" in let I := fresh "I'" in
  intros v x' E I;
  repeat match goal with H : holds _ _ _ |- _ => apply (e_holds _ _ _ _ E) in H end.
Lemma step_sim : forall nd o n i x, inv x -> shape V kind_of (fst x) nd o -> initialized o = true ->
  holds x (children nd) i -> Forall (fun nd => height nd <= d) (children nd) ->
  (forall l, nd = NSeq l -> exists h, node_at (snd x) i = Some h /\ h_kids h = []) ->
  sim x (exec μ nd n (fst x)) (step V fits hr ev n i o x).
Proof.
  intros nd o n i x I Sh In Hd Ht Sq.
  destruct nd, o; cbn [shape] in Sh; try contradiction; try discriminate; cbn [children] in *;
    repeat match goal with
    | H : _ /\ _ |- _ => destruct H
    | H : Forall _ (_ :: _) |- _ => inversion H; subst; clear H
    end; subst; cbn [step].
  - apply sim_done, I.
  - asked.
  - asked.
  - asked.
  - asked.
  - asked.
  - cbn [exec]. apply sim_bind; auto; [kid|]. next. apply sim_bind; auto; [asked|]. next. apply sim_done, I'0.
  - asked.
  - cbn [exec]. apply sim_bind; auto; [kid|]. next. apply sim_bind; auto; [asked|]. next. apply sim_done, I'0.
  - asked.
  - asked.
  - cbn [exec machine_of a_glob]. rewrite (g_known V Law) by assumption. asked.
  - rewrite exec_send. apply sim_bind; auto; [apply ev_all_sim; auto|]. next. asked.
  - rewrite exec_send. apply sim_bind; auto; [apply ev_all_sim; auto|]. next.
    destruct (fits kind v) eqn:Ef; [asked|]. right. destruct H0 as (vs & Q). exists sel0, vs, kind, v. auto.
  - rewrite exec_super. destruct (v_has_super V sel0 (fst x)).
    + apply sim_bind; auto; [apply ev_all_sim; auto|]. next. asked.
    + apply sim_abrupt, I.
  - cbn [exec]. apply sim_bind; auto; [kid|]. next. asked.
  - cbn [exec]. apply sim_bind; auto; [kid|]. next. asked.
  - cbn [exec]. apply sim_bind; auto; [kid|]. next. apply sim_abrupt, I'.
  - destruct (Sq l eq_refl) as (h & N & Hk). rewrite N.
    change (exec μ (NSeq l) n (fst x)) with (seqs n (skipn 0 l) (fst x)). apply ev_seq_sim; auto.
    destruct Hd as (h2 & N2 & _ & F). assert (h2 = h) by congruence. subst h2.
    rewrite (forall2_length F). unfold all_kids. rewrite Hk. reflexivity.
  - cbn [exec]. apply sim_bind; auto; [kid|]. next. destruct (is_bool b v); [kid|].
    destruct (is_bool (negb b) v); [apply sim_done, I' | apply sim_abrupt, I'].
  - cbn [exec]. apply sim_bind; auto; [kid|]. next. destruct (is_nil v); [kid | apply sim_done, I'].
  - cbn [exec]. apply sim_bind; auto; [kid|]. next. destruct (is_nil v); [apply sim_done, I' | kid].
  - cbn [exec]. apply sim_bind; auto; [kid|]. next. destruct (is_bool b v); [kid|].
    destruct (is_bool (negb b) v); [kid | apply sim_abrupt, I'].
  - cbn [exec]. apply sim_bind; auto; [kid|]. next. destruct (is_nil v); kid.
  - cbn [exec]. apply hwhile_sim; auto.
  - cbn [exec]. apply sim_bind; auto; [kid|]. next. destruct (is_bool true v); [kid|].
    destruct (is_bool false v); [apply sim_done, I' | apply sim_abrupt, I'].
  - cbn [exec]. apply sim_bind; auto; [kid|]. next. destruct (is_bool true v); [apply sim_done, I'|].
    destruct (is_bool false v); [kid | apply sim_abrupt, I'].
Qed.

(** ** Nodes that rewrite themselves *)
Lemma repr_node : forall (x : sh) nd i, repr x nd i -> exists h, node_at (snd x) i = Some h.
Proof. intros x nd i R. inversion R; subst. eauto. Qed.
Lemma repr_holds : forall (x : sh) nd i h, repr x nd i -> node_at (snd x) i = Some h -> lonely (h_op h) = false ->
  holds x (children nd) i.
Proof.
  intros x nd i h R N L. inversion R; subst. assert (h0 = h) by congruence. subst h0. exists h. auto.
Qed.
Lemma rewritten : forall (x : sh) nd i h o kids l j H', inv x -> repr x nd i -> par (snd x) i ->
  node_at (snd x) i = Some h -> new_node o kids l true (snd x) = (j, H') ->
  kids ++ olist l = all_kids (snd x) h -> lonely o = false ->
  (forall nd', shape V kind_of (fst x) nd' (h_op h) -> shape V kind_of (fst x) nd' o /\
     match nd' with NSeq _ => False | NWrite _ _ _ => l = None | _ => True end) ->
  exists H2, replace i j H' = Some H2 /\ ext x (fst x, H2) /\ wf H2 /\ holds (fst x, H2) (children nd) j.
Proof.
  intros [s H] nd i h o kids l j H' (W & Bk) R P N E Ek Lo Sh. cbn [fst snd] in *.
  assert (Va : forall c, In c (kids ++ olist l) -> exists h, node_at H c = Some h).
  { intros c I. rewrite Ek in I. inversion R; subst. cbn [fst snd] in *. assert (h0 = h) by congruence. subst h0.
    clear - H3 I. revert I. induction H3; intros []; subst; auto. eapply (repr_node (s, H)); eauto. }
  destruct (new_node_spec V kind_of s o kids l true H j H' W E Va ltac:(discriminate))
    as (Kp & W' & Fr & (hj & Nj & Oj & Kj & Ej) & _ & Old).
  destruct (Old _ _ N) as (h1 & N1 & O1 & K1 & E1 & P1).
  assert (Pi : par H' i). { destruct P as (h0 & p & N0 & P0). assert (h0 = h) by congruence. subst h0. eauto. }
  assert (Up : forall nd', repr (s, H') nd' i -> repr (s, H') nd' j).
  { intros nd' R'. inversion R'; subst. cbn [fst snd] in *. assert (h0 = h1) by congruence. subst h0.
    rewrite O1 in H1. destruct (Sh _ H1) as (Q1 & Q2). apply Repr with hj; cbn [fst snd]; auto.
    - destruct nd'; auto; try contradiction. rewrite Ej, Q2. reflexivity.
    - unfold all_kids in *. rewrite Ej, <- E1 in *. rewrite <- K1 in *. rewrite Ek. exact H3. }
  destruct (replace_spec V kind_of s i j H' hj W' Pi Nj Up) as (H2 & E2 & Kp2 & W2 & _).
  apply keeps_ext in Kp. apply keeps_ext in Kp2.
  exists H2. split; [exact E2|]. split; [eapply ext_trans; eauto|]. split; [exact W2|].
  apply (e_holds _ _ _ _ Kp2). eapply repr_holds; [apply Up, (e_repr _ _ _ _ Kp), R | exact Nj | congruence].
Qed.
Lemma msg_shape : forall s nd sel, shape V kind_of s nd (OMsgU sel : op K) -> exists r l, nd = NSend sel r l.
Proof. intros s nd sel Q. destruct nd; cbn in Q; try contradiction. subst. eauto. Qed.
Lemma hstep_sim : forall nd, Forall (fun nd => height nd <= d) (children nd) -> forall n i x,
  inv x -> repr x nd i -> par (snd x) i ->
  sim x (exec μ nd n (fst x)) (hstep V kind_of fits hr ev n i x).
Proof.
  intros nd Ht n i x I R P. inversion R as [nd0 i0 h N Sh Sl F]; subst. unfold hstep. rewrite N.
  assert (Ini : initialized (h_op h) = true -> sim x (exec μ nd n (fst x)) (step V fits hr ev n i (h_op h) x)).
  { intros Q. apply step_sim; auto.
    - eapply repr_holds; eauto. destruct (h_op h); auto; discriminate.
    - intros l ->. exists h. auto. }
  destruct (h_op h) eqn:O; try (apply Ini; reflexivity); clear Ini.
  - destruct (new_node (OReadI v k) [] None true (snd x)) as (j, H') eqn:E.
    destruct nd; cbn [shape] in Sh; try contradiction. destruct Sh as (-> & ->).
    destruct (rewritten x _ i h _ _ _ _ _ I R P N E) as (H2 & E2 & X2 & W2 & D2).
    + cbn [children] in F. inversion F. reflexivity.
    + reflexivity.
    + rewrite O. intros nd' Q. destruct nd'; cbn [shape] in *; try contradiction. auto.
    + unfold become. rewrite E2. eapply sim_trans; [exact X2|].
      apply (step_sim (NRead v k) (OReadI v k) n j (fst x, H2)); auto.
      * split; auto. eapply bok_ext; [exact X2 | apply I].
      * cbn. auto.
      * discriminate.
  - destruct (new_node (OWriteI v k) (h_kids h) None true (snd x)) as (j, H') eqn:E.
    destruct nd; cbn [shape] in Sh; try contradiction. destruct Sh as (-> & ->).
    destruct (rewritten x _ i h _ _ _ _ _ I R P N E) as (H2 & E2 & X2 & W2 & D2).
    + unfold all_kids. rewrite Sl. reflexivity.
    + reflexivity.
    + rewrite O. intros nd' Q. destruct nd'; cbn [shape] in *; try contradiction. auto.
    + unfold become. rewrite E2. eapply sim_trans; [exact X2|].
      apply (step_sim (NWrite v k nd) (OWriteI v k) n j (fst x, H2)); auto.
      * split; auto. eapply bok_ext; [exact X2 | apply I].
      * cbn. auto.
      * discriminate.
  - destruct nd; cbn [shape] in Sh; try contradiction. destruct Sh as (-> & ->).
    destruct (v_has V n0 (fst x)) eqn:Hs.
    + destruct (new_node (OGlobC n0) [] None true (snd x)) as (j, H') eqn:E.
      destruct (rewritten x _ i h _ _ _ _ _ I R P N E) as (H2 & E2 & X2 & W2 & D2).
      * cbn [children] in F. inversion F. reflexivity.
      * reflexivity.
      * rewrite O. intros nd' Q. destruct nd'; cbn [shape] in *; try contradiction. destruct Q as (-> & _). auto.
      * unfold become. rewrite E2. eapply sim_trans; [exact X2|].
        apply (step_sim (NUnk n0 k) (OGlobC n0) n j (fst x, H2)); auto.
        -- split; auto. eapply bok_ext; [exact X2 | apply I].
        -- cbn. auto.
        -- discriminate.
    + asked.
  - destruct (msg_shape _ _ _ Sh) as (r & l & ->). rewrite exec_send. apply sim_bind; auto.
    + apply ev_all_sim; auto. apply (repr_holds x (NSend sel r l) i h); auto. rewrite O. reflexivity.
    + intros vs x' E I'. pose proof (e_repr _ _ _ _ E _ _ R) as R'. pose proof (e_par _ _ _ _ E _ P) as P'.
      destruct (e_node _ _ _ _ E _ _ N) as (h' & N' & O' & _). rewrite N'.
      match goal with |- sim _ _ (let (_, _) := ?m in _) => destruct m as (j, H') eqn:En end.
      assert (Q : exists o kids l, new_node o kids l true (snd x') = (j, H') /\ kids ++ olist l = all_kids (snd x') h' /\
        lonely o = false /\ (forall nd', shape V kind_of (fst x') nd' (h_op h') -> shape V kind_of (fst x') nd' o /\
          match nd' with NSeq _ => False | NWrite _ _ _ => l = None | _ => True end)).
      { assert (Sh' : forall nd', shape V kind_of (fst x') nd' (h_op h') -> exists r l, nd' = NSend sel r l).
        { intros nd' Q. rewrite O', O in Q. eapply msg_shape; eauto. }
        destruct (kind_of sel vs) as [kind|] eqn:Kd; [|destruct (length vs <=? 3)];
          eexists _, _, _; (split; [exact En|]); (split; [cbn [olist]; rewrite ?app_nil_r; reflexivity|]);
          (split; [reflexivity|]); intros nd' Q; destruct (Sh' _ Q) as (r' & l' & ->); cbn; eauto. }
      destruct Q as (o & kids & lo & En' & Ek & Lo & Shs).
      destruct (rewritten x' _ i h' _ _ _ _ _ I' R' P' N' En' Ek Lo Shs) as (H2 & E2 & X2 & W2 & D2).
      unfold become. rewrite E2. eapply sim_trans; [exact X2|].
      assert (I2 : inv (fst x', H2)) by (split; auto; eapply bok_ext; [exact X2 | apply I']).
      change (fst x') with (fst (fst x', H2)) at 2.
      match goal with |- sim ?x _ (ask hr ?f _) => apply (ask_sim _ f x); [intros; apply Law | assumption] end.
  - destruct nd; cbn [shape] in Sh; contradiction.
Qed.
End Children.
Lemma hexec_sim : forall d nd, height nd <= d -> forall n i x, inv x -> repr x nd i -> par (snd x) i ->
  sim x (exec μ nd n (fst x)) (hexec V kind_of fits hr d n i x).
Proof.
  induction d as [|d IH]; intros nd Ht n i x I R P.
  - destruct nd; cbn in Ht; lia.
  - cbn [hexec]. apply (hstep_sim (fun n i x => hexec V kind_of fits hr d n i x) d); auto.
    rewrite Forall_forall. intros c C. apply height_child in C. lia.
Qed.
End Run.
Lemma hrun_sim : forall d, deepest bodies <= d -> forall n l x, inv x ->
  sim x (arun V bodies n l (fst x)) (hrun V kind_of fits root d n l x).
Proof.
  intros d Hd. induction n as [|n IH]; intros l x I; [reflexivity|].
  cbn [arun hrun]. pose proof (proj2 I l) as B. destruct (nth_error bodies l) as [nd|] eqn:E.
  - destruct B as (r & -> & (h & N & L & F)). unfold child. rewrite N. inversion F as [|a c l1 l2 Rc Fn E1 E2]; subst.
    inversion Fn; subst. cbn [nth_error]. apply hexec_sim; auto.
    + apply nth_error_In, height_in in E. unfold deepest in Hd. lia.
    + eapply kid_par; [apply I | exact N | exact L | rewrite <- E2; left; reflexivity].
  - rewrite B. cbn. auto.
Qed.
End RwExec.
