(** Loading ends when the superclasses do. *)
From Coq Require Import Bool String List Ascii Arith Lia.
From Verif Require Import Base LexModel ParseModel ClsModel ClsSpec ClsGrow.
Import ListNotations.

Section End_.
Context {M : Type}.
Variable sel : M -> text.
Variable is_prim : M -> bool.
Variable known : text -> option (list (bool * text)).
Variable avoid : bool.
Variable path : list (text -> option (file M)).

Notation comp := (comp M).
Notation univ := (univ M).
Notation load_class := (load_class M sel is_prim known avoid path).
Notation load_file := (load_file M sel is_prim avoid path).
Notation glob := (glob M).
Notation settled := (@settled M _).

Definition calm {A} (x : comp A) : Prop := forall u, settled (x u).
Lemma calm_then : forall A B (x : comp A) (f : A -> comp B),
  calm x -> (forall a, calm (f a)) -> calm (andthen M x f).
Proof.
  intros A B x f Hx Hf u. specialize (Hx u). unfold ClsGrow.settled, andthen in *.
  destruct (x u) as [[a|e] u1]; cbn in *; [apply Hf|congruence].
Qed.
Lemma then_settled : forall A B (x : comp A) (f : A -> comp B) u,
  settled (x u) -> (forall a, calm (f a)) -> settled (andthen M x f u).
Proof.
  intros A B x f u Hx Hf. unfold ClsGrow.settled, andthen in *.
  destruct (x u) as [[a|e] u1]; cbn in *; [apply Hf|congruence].
Qed.
Lemma calm_ret : forall A (a : A), calm (ret M a).
Proof. intros A a u. discriminate. Qed.
Lemma calm_fail : forall A e, e <> OutOfFuel -> calm (@fail M A e).
Proof. intros A e H u. unfold ClsGrow.settled, fail. cbn. congruence. Qed.
Lemma calm_get : forall i, calm (get M i).
Proof. intros i u. unfold ClsGrow.settled, get. destruct (nth_error (u_cls u) i); discriminate. Qed.
Lemma calm_the : forall A (o : option A), calm (the M o).
Proof. intros A [a|] u; discriminate. Qed.
Lemma calm_edit : forall i f, calm (edit M i f).
Proof. intros i f u. discriminate. Qed.
Lemma calm_alloc : forall k, calm (alloc M k).
Proof. intros k u. discriminate. Qed.
Lemma calm_exit : calm (exit M avoid).
Proof. intros u. unfold exit. destruct avoid; discriminate. Qed.
Ltac calm := repeat first [apply calm_ret | apply calm_get | apply calm_the | apply calm_edit | apply calm_alloc
   | apply calm_exit | apply calm_fail; discriminate | apply calm_then; [|intros ?]].
Lemma calm_assemble : forall meta sup c, calm (assemble M sel is_prim meta sup c).
Proof.
  intros meta sup c. unfold assemble. apply calm_then; [calm|intros mk].
  destruct sup as [[[s fs] cfs]|]; calm. intros u.
  match goal with |- settled (?x u) => change (settled ((fun w => x w) u)) end.
  apply then_settled; [discriminate|]. intros x. calm.
Qed.
Lemma calm_install : forall l i mi n, calm (install M i mi n l).
Proof.
  induction l as [|[b s] r IH]; intros i mi n; cbn [install]; [calm|].
  apply calm_then; [apply calm_edit|]. intros []. apply IH.
Qed.
Lemma calm_maybe : forall r b, calm (maybe_primitives M known r b).
Proof.
  intros [i|] b; cbn [maybe_primitives]; [|calm].
  apply calm_then; [calm|intros k]. apply calm_then; [calm|intros mi]. apply calm_then; [calm|intros mk].
  destruct (k_prims k || k_prims mk || b); [|calm].
  unfold load_primitives. apply calm_then; [calm|intros k']. apply calm_then; [calm|intros n].
  destruct (known n); [|calm]. apply calm_then; [calm|intros x]. apply calm_install.
Qed.

Lemma superclass_settled : forall ld s u n,
  file_super (M := M) (BadBody s) = Some n ->
  n = str "nil" \/ settled (ld n u) -> settled (superclass M ld s u).
Proof.
  intros ld s u n Hn H. unfold superclass. fold t_nil in *.
  assert (E : match s with Some x => x | None => t_Object end = n).
  { destruct s; cbn [file_super] in Hn; fold t_Object in Hn; congruence. }
  rewrite E. destruct (text_eqb n t_nil) eqn:F; [discriminate|].
  destruct H as [H|H].
  - apply text_eqb_eq in H. congruence.
  - apply then_settled; [exact H|]. intros [[i|l i]|]; calm.
Qed.
Lemma compile_settled : forall ld meta f u,
  (forall n, file_super f = Some n -> n = str "nil" \/ settled (ld n u)) ->
  settled (compile M sel is_prim meta ld None f u).
Proof.
  intros ld meta f u H. unfold compile. destruct f as [c| |s]; [|discriminate|].
  - apply then_settled; [|intros; apply calm_assemble].
    eapply superclass_settled; [|now apply H]. cbn [file_super]. unfold super_name. now destruct (c_super M c).
  - apply then_settled; [|intros; now apply calm_fail].
    destruct (file_super (M := M) (BadBody s)) eqn:E.
    + eapply superclass_settled; [exact E|]. now apply H.
    + destruct s; discriminate.
Qed.

Lemma chain_settled : forall u n k, chain path u n k -> forall meta, settled (load_class (S k) meta n u).
Proof.
  assert (T : forall u n k meta, (glob u n = None -> settled (load_file meta (load_class k meta) n None u)) ->
    settled (load_class (S k) meta n u)).
  { intros u n k meta H. cbn [ClsModel.load_class]. destruct (glob u n); [discriminate|].
    apply then_settled; [now apply H|]. intros r. apply calm_then; [apply calm_maybe|]. intros []. 
    apply calm_then; [intros w; discriminate|]. intros []. calm. }
  assert (F : forall ld meta n u f, find M path n = Some f ->
    (forall s, file_super f = Some s -> s = str "nil" \/ settled (ld s u)) ->
    settled (load_file meta ld n None u)).
  { intros ld meta n u f Hf H. unfold ClsModel.load_file. rewrite Hf.
    apply then_settled; [now apply compile_settled|].
    intros i. apply calm_then; [calm|intros kk]. apply calm_then; [calm|intros cn].
    apply calm_then; [destruct (text_eqb n cn); calm|intros []; calm]. }
  intros u n k H. induction H as [n v H|n H|n f Hf Hs|n f Hf Hs|n f s k Hf Hs Hc IH]; intros meta.
  - cbn [ClsModel.load_class]. rewrite H. discriminate.
  - apply T. intros _. unfold ClsModel.load_file. rewrite H. discriminate.
  - apply T. intros _. eapply F; [exact Hf|]. intros s E. congruence.
  - apply T. intros _. eapply F; [exact Hf|]. intros s E. left. congruence.
  - apply T. intros _. eapply F; [exact Hf|]. intros s' E. right.
    assert (s' = s) by congruence. subst s'. apply IH.
Qed.

(** And it does not end otherwise: a set of names, none of them loaded, each with a
    file that names a superclass in the set. *)
Lemma cycle_unsettled : forall (C : text -> Prop) u meta,
  (forall n, C n -> glob u n = None /\ exists f s, find M path n = Some f /\
     file_super f = Some s /\ s <> str "nil" /\ C s) ->
  forall fuel n, C n -> load_class fuel meta n u = (Err OutOfFuel, u).
Proof.
  intros C u meta H. induction fuel as [|k IH]; intros n Hn; [reflexivity|].
  destruct (H n Hn) as (G & f & s & Hf & Hs & Hnil & HC). cbn [ClsModel.load_class]. rewrite G.
  assert (S : forall o, file_super (M := M) (BadBody o) = Some s ->
    superclass M (load_class k meta) o u = (Err OutOfFuel, u)).
  { intros o Ho. unfold superclass.
    assert (E : match o with Some x => x | None => t_Object end = s).
    { destruct o; cbn [file_super] in Ho; fold t_Object in Ho; congruence. }
    rewrite E. fold t_nil in Hnil. apply text_eqb_neq in Hnil. rewrite Hnil.
    apply andthen_err. now apply IH. }
  apply andthen_err. unfold ClsModel.load_file. rewrite Hf. apply andthen_err. unfold compile.
  destruct f as [c| |o]; [|discriminate|]; apply andthen_err; apply S.
  - rewrite <- Hs. cbn [file_super]. unfold super_name. now destruct (c_super M c).
  - exact Hs.
Qed.
End End_.
