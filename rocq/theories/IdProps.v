(** C71: identity, equality and hash codes. *)
From Coq Require Import ZArith Bool String List Lia Floats.SpecFloat.
From Verif Require Import Base NumModel ArrModel IdModel IdSpec IdProofs.
From Verif Require TxtModel.
Import ListNotations.
Open Scope list_scope.
Open Scope Z_scope.

(** The number an integer object stands for; the text of a String or Symbol. *)
Definition integer_value (b : box) : option Z :=
  match what b with VInt z | VBig z => Some z | _ => None end.
Definition text_of (b : box) : option string :=
  match what b with VStr t | VSym t => Some t | _ => None end.
Definition symbol (b : box) : Prop := exists t, what b = VSym t.
Definition double (b : box) : Prop := exists f, what b = VDbl f.

(** == answers true for the same object, and for integers that are the same number, and false
    otherwise. *)
Theorem C71_identical : forall m s a b, reachable m s -> has s a -> has s b ->
  exists x, send_identical m a b = Ok (som_bool x) /\
    (x = true <-> a = b \/ exists z, integer_value a = Some z /\ integer_value b = Some z).
Proof.
  intros m s a b H Ha Hb. pose proof (reachable_ok _ _ _ H Ha) as Oa. pose proof (reachable_ok _ _ _ H Hb) as Ob.
  assert (I : forall x y, what a = x -> what b = y -> (exists z, (x = VInt z \/ x = VBig z)) ->
     exists r, int_equals_equals m x y = Ok (som_bool r) /\
       (r = true <-> exists z, (x = VInt z \/ x = VBig z) /\ (y = VInt z \/ y = VBig z))).
  { intros x y _ _ [z [-> | ->]]; destruct y; cbn;
      try (exists false; split; [reflexivity|]; split; [discriminate|]; intros (? & ? & [?|?]); discriminate);
      (exists (z =? z0); split; [reflexivity|]; rewrite Z.eqb_eq; split;
       [intros ->; eauto|intros (w & [K|K] & [L|L]); congruence]). }
  assert (E : a = b <-> at_ a = at_ b) by (split; [congruence|now apply (ok_place _ _ _ _ _ Oa Ob)]).
  unfold send_identical, integer_value.
  destruct (what a) eqn:Wa.
  4,5: destruct (I _ _ eq_refl eq_refl ltac:(eauto)) as (r & Er & Hr); exists r; split; [exact Er|]; rewrite Hr;
    (split; [intros (w & [K|K] & [L|L]); rewrite ?L; right; exists w; split; congruence|
             intros [<- | (w & K & L)]; [rewrite Wa; eauto 6|destruct (what b); inversion K; inversion L; subst; eauto 6]]).
  all: exists (place_eqb (at_ a) (at_ b)); split; [reflexivity|]; rewrite place_eqb_eq, <- E;
    (split; [now left|intros [K|(w & K & _)]; [exact K|discriminate]]).
Qed.
Print Assumptions C71_identical.

(** So == is an equivalence on everything a program has. *)
Theorem C71_equivalence : forall m s a b c, reachable m s -> has s a -> has s b -> has s c ->
  send_identical m a a = Ok VTrue /\
  send_identical m a b = send_identical m b a /\
  (send_identical m a b = Ok VTrue -> send_identical m b c = Ok VTrue -> send_identical m a c = Ok VTrue).
Proof.
  intros m s a b c H Ha Hb Hc.
  assert (T : forall x, Ok (som_bool x) = Ok VTrue <-> x = true) by (intros []; split; easy).
  destruct (C71_identical m s a a H Ha Ha) as (x1 & E1 & H1).
  destruct (C71_identical m s a b H Ha Hb) as (x2 & E2 & H2).
  destruct (C71_identical m s b a H Hb Ha) as (x3 & E3 & H3).
  destruct (C71_identical m s b c H Hb Hc) as (x4 & E4 & H4).
  destruct (C71_identical m s a c H Ha Hc) as (x5 & E5 & H5).
  rewrite E1, E2, E3, E4, E5, !T. split; [|split].
  - apply H1; now left.
  - do 2 f_equal. apply eq_true_iff_eq. rewrite H2, H3.
    split; (intros [K|(z & K & L)]; [left; congruence|right; eauto]).
  - rewrite H2, H4, H5. intros [->|(z & K & L)]; [auto|].
    intros [<-|(w & K' & L')]; [right; eauto|]. right. exists w. split; congruence.
Qed.
Print Assumptions C71_equivalence.

(** = of a String or Symbol compares the texts, whichever of the two the argument is, and equal
    texts have the same hashcode, whatever the hash functions are. *)
Theorem C71_texts : forall m s a b t sh ih, reachable m s -> has s a -> has s b -> text_of a = Some t ->
  (send_equal m a b = Ok VTrue <-> text_of b = Some t) /\
  (send_equal m a b = Ok VFalse <-> text_of b <> Some t) /\
  (send_equal m a b = Ok VTrue -> send_hashcode sh ih a = send_hashcode sh ih b).
Proof.
  intros m s a b t sh ih H Ha Hb Ta.
  assert (Q : exists x, send_equal m a b = Ok (som_bool x) /\ (x = true <-> text_of b = Some t)).
  { assert (P : TxtModel.prim_equals t (what b) = true <-> text_of b = Some t).
    { unfold text_of, TxtModel.prim_equals. destruct (what b); try (split; discriminate);
        rewrite String.eqb_eq; split; congruence. }
    unfold send_equal. unfold text_of in Ta. destruct (what a) eqn:Wa; try discriminate; inversion Ta; subst.
    - eauto.
    - destruct (place_eqb (at_ a) (at_ b)) eqn:E; [|eauto].
      exists true; split; [reflexivity|]. apply place_eqb_eq in E.
      assert (a = b) by (eapply ok_place; [exact (reachable_ok _ _ _ H Ha)|exact (reachable_ok _ _ _ H Hb)|exact E]).
      subst b. unfold text_of. rewrite Wa. split; auto. }
  destruct Q as (x & E & Hx). rewrite E. split; [|split].
  - rewrite <- Hx. destruct x; split; easy.
  - rewrite <- Hx. destruct x; split; easy.
  - intro K. assert (text_of b = Some t) by (apply Hx; destruct x; easy).
    unfold send_hashcode. unfold text_of in *. destruct (what a); try discriminate; destruct (what b); congruence.
Qed.
Print Assumptions C71_texts.

(** Symbols are identical exactly if they are equal. *)
Theorem C71_symbols : forall m s a b, reachable m s -> has s a -> has s b -> symbol a -> symbol b ->
  send_identical m a b = send_equal m a b.
Proof.
  intros m s a b H Ha Hb [t Wa] [u Wb].
  assert (Ta : text_of a = Some t) by (unfold text_of; now rewrite Wa).
  destruct (C71_identical m s a b H Ha Hb) as (x & E & Hx).
  destruct (C71_texts m s a b t (fun _ => 0) (fun _ => 0) H Ha Hb Ta) as (T & F & _).
  rewrite E. destruct x; cbn [som_bool]; symmetry.
  - apply T. destruct (proj1 Hx eq_refl) as [->|(z & K & _)]; [assumption|].
    unfold integer_value in K. rewrite Wa in K. discriminate.
  - apply F. intro K. assert (false = true); [|discriminate]. apply Hx. left.
    unfold text_of in K. rewrite Wb in K. inversion K; subst u.
    pose proof (proj2 (reachable_ok _ _ _ H Ha) t Wa). pose proof (proj2 (reachable_ok _ _ _ H Hb) t Wb). congruence.
Qed.
Print Assumptions C71_symbols.

(** Identical objects have the same hashcode, unless they are integers. *)
Theorem C71_hash_partial : forall m s a b sh ih, reachable m s -> has s a -> has s b ->
  integer_value a = None -> send_identical m a b = Ok VTrue -> send_hashcode sh ih a = send_hashcode sh ih b.
Proof.
  intros m s a b sh ih H Ha Hb N E. destruct (C71_identical m s a b H Ha Hb) as (x & E' & Hx).
  rewrite E in E'. destruct x; [|discriminate]. destruct (proj1 Hx eq_refl) as [->|(z & K & _)]; congruence.
Qed.
Print Assumptions C71_hash_partial.

(** Whatever a program does with its objects (handing them on, arrays, fields), it has at every
    point the same objects as with a memory that keeps the objects themselves, except that the
    Integers and Doubles may be others of the same value. *)
Theorem C71_moves_partial : forall m os s, run m os start = Ok s ->
  exists t, i_run os ideal_start = Ok t /\ length (vars s) = length (i_vars t) /\
    forall x b b', nth_error (vars s) x = Some b -> nth_error (i_vars t) x = Some b' ->
      what b = what b' /\ (number (what b) = false -> b = b').
Proof.
  intros m os s E. destruct (run_sim _ _ _ _ _ R_start E) as (t & Et & r). exists t.
  split; [exact Et|]. split; [exact (Forall2_length _ _ _ _ _ (r_vars _ _ r))|].
  intros x b b' Nb Nb'. destruct (Forall2_nth _ _ _ _ _ _ _ (r_vars _ _ r) Nb) as (y & Ey & S).
  rewrite Nb' in Ey. inversion Ey; subst. exact S.
Qed.
Print Assumptions C71_moves_partial.

(** So == cannot tell the VM from such a memory unless it compares two Doubles, hashcode not
    unless it is sent to an Integer or a Double. *)
Theorem C71_answers_partial : forall m os s t x y a b a' b' sh ih,
  run m os start = Ok s -> i_run os ideal_start = Ok t ->
  nth_error (vars s) x = Some a -> nth_error (vars s) y = Some b ->
  nth_error (i_vars t) x = Some a' -> nth_error (i_vars t) y = Some b' ->
  (~ (double a /\ double b) -> send_identical m a b = send_identical m a' b') /\
  (number (what a) = false -> send_hashcode sh ih a = send_hashcode sh ih a').
Proof.
  intros m os s t x y a b a' b' sh ih E Et Na Nb Na' Nb'.
  destruct (C71_moves_partial m os s E) as (t' & Et' & _ & S). rewrite Et in Et'. inversion Et'; subst t'.
  destruct (S x a a' Na Na') as [Wa Ia]. destruct (S y b b' Nb Nb') as [Wb Ib]. split.
  - intro N.
    assert (Ha : ok (made s) (reboxed s) (symbols s) a) by (eapply reachable_ok; [exists os; exact E|eapply nth_error_In; eauto]).
    assert (Hb : ok (made s) (reboxed s) (symbols s) b) by (eapply reachable_ok; [exists os; exact E|eapply nth_error_In; eauto]).
    pose proof (i_vars_ok _ (i_run_I _ _ _ I_start Et)) as V. rewrite Forall_forall in V.
    assert (Ha' := V _ (nth_error_In _ _ Na')). assert (Hb' := V _ (nth_error_In _ _ Nb')).
    assert (D : what a <> what b -> place_eqb (at_ a) (at_ b) = place_eqb (at_ a') (at_ b')).
    { intro K. transitivity false; [|symmetry]; apply not_true_is_false; intro Q; apply place_eqb_eq in Q.
      - apply K. f_equal. now apply (ok_place _ _ _ _ _ Ha Hb).
      - apply K. rewrite Wa, Wb. f_equal. now apply (ok_place _ _ _ _ _ Ha' Hb'). }
    unfold send_identical. rewrite <- Wa, <- Wb.
    destruct (number (what a)) eqn:Qa.
    + destruct (what a) eqn:Va; try discriminate; [reflexivity|].
      rewrite D; [reflexivity|]. intro K. apply N. split; eexists; eauto.
    + rewrite <- (Ia eq_refl) in *. destruct (number (what b)) eqn:Qb; [|now rewrite <- (Ib eq_refl)].
      rewrite D by (intro K; congruence). reflexivity.
  - intro Q. now rewrite (Ia Q).
Qed.
Print Assumptions C71_answers_partial.

(** * Where it fails *)
(** Two integers that are the same number, and equal and identical as far as the program can
    ask, have different hashcodes. *)
Theorem C71_number_hash_refuted : forall m z sh ih, (forall p q, ih p = ih q -> p = q) ->
  exists s a b, run m [OInt z; OInt z] start = Ok s /\ vars s = [a; b] /\
    send_equal m a b = Ok VTrue /\ send_identical m a b = Ok VTrue /\
    send_hashcode sh ih a <> send_hashcode sh ih b.
Proof.
  intros m z sh ih H. do 3 eexists. split; [reflexivity|]. split; [reflexivity|].
  cbn. rewrite Z.eqb_refl. repeat split. intro K. apply H in K. discriminate.
Qed.
Print Assumptions C71_number_hash_refuted.

(** An integer that went through an array of integers, or through a field, has another hashcode
    than before, and each time it is read another one. *)
Definition through_array (v : op) : list op := [v; OInt 1; OArray 1; OAtPut 2 1 0; OAt 2 1; OAt 2 1].
Definition through_field (v : op) : list op := [v; ONew 1; OWrite 1 0 0 true; ORead 1 0; ORead 1 0].
Theorem C71_moved_hash_refuted : forall m z sh ih, (forall p q, ih p = ih q -> p = q) ->
  (exists s a b c, run m (through_array (OInt z)) start = Ok s /\
     nth_error (vars s) 0 = Some a /\ nth_error (vars s) 4 = Some b /\ nth_error (vars s) 5 = Some c /\
     send_identical m a b = Ok VTrue /\
     send_hashcode sh ih a <> send_hashcode sh ih b /\ send_hashcode sh ih b <> send_hashcode sh ih c) /\
  (exists s a b c, run m (through_field (OInt z)) start = Ok s /\
     nth_error (vars s) 0 = Some a /\ nth_error (vars s) 3 = Some b /\ nth_error (vars s) 4 = Some c /\
     send_identical m a b = Ok VTrue /\
     send_hashcode sh ih a <> send_hashcode sh ih b /\ send_hashcode sh ih b <> send_hashcode sh ih c).
Proof.
  intros m z sh ih H; split; do 4 eexists; (split; [vm_compute; reflexivity|]);
    do 3 (split; [reflexivity|]); cbn; rewrite Z.eqb_refl; repeat split; intro K; apply H in K; discriminate.
Qed.
Print Assumptions C71_moved_hash_refuted.

(** A Double that went through an array of Doubles, or through a field, is not identical to
    what it was, and what is read twice is not identical to itself. *)
Theorem C71_moved_double_refuted : forall m f,
  (exists s a b c, run m (through_array (ODbl f)) start = Ok s /\
     nth_error (vars s) 0 = Some a /\ nth_error (vars s) 4 = Some b /\ nth_error (vars s) 5 = Some c /\
     send_identical m a b = Ok VFalse /\ send_identical m b c = Ok VFalse) /\
  (exists s a b c, run m (through_field (ODbl f)) start = Ok s /\
     nth_error (vars s) 0 = Some a /\ nth_error (vars s) 3 = Some b /\ nth_error (vars s) 4 = Some c /\
     send_identical m a b = Ok VFalse /\ send_identical m b c = Ok VFalse).
Proof.
  intros m f; split; do 4 eexists; (split; [vm_compute; reflexivity|]);
    do 3 (split; [reflexivity|]); split; reflexivity.
Qed.
Print Assumptions C71_moved_double_refuted.

(** * The hypotheses are met *)
(** A string, a symbol met twice, an array of three in which objects and numbers go, an object
    whose field takes a big integer, and a change of layout. *)
Definition ex_history : list op :=
  [OStr "a"%string; OSym "a"%string; OSym "a"%string; OInt 1; OInt 2; OArray 2;
   OAtPut 5 3 4; OAtPut 5 4 0; OAt 5 3; OAt 5 4; OCopy 5; OPutAll 10 1; OAt 10 3;
   ONew 2; OBig 7; OWrite 13 0 14 true; OWrite 13 1 4 true; ORelayout 13 [false; false]; ORead 13 0; ORead 13 1].
Example C71_nonvacuous : exists s, run Translated ex_history start = Ok s /\
  nth_error (vars s) 9 = nth_error (vars s) 0 /\ nth_error (vars s) 12 = nth_error (vars s) 1 /\
  nth_error (vars s) 2 = nth_error (vars s) 1 /\ nth_error (vars s) 18 = nth_error (vars s) 14 /\
  option_map what (nth_error (vars s) 8) = Some (VInt 2) /\ nth_error (vars s) 8 = nth_error (vars s) 4 /\
  option_map what (nth_error (vars s) 19) = Some (VInt 2) /\ nth_error (vars s) 19 <> nth_error (vars s) 4.
Proof. eexists. split; [vm_compute; reflexivity|]. cbn. repeat split; discriminate. Qed.
Example C71_nonvacuous_texts : forall m, exists s a b c, run m [OStr "a"%string; OSym "a"%string; OStr "a"%string] start = Ok s /\
  vars s = [a; b; c] /\ send_equal m a b = Ok VTrue /\ send_equal m b a = Ok VTrue /\
  send_identical m a b = Ok VFalse /\ send_identical m a c = Ok VFalse /\ send_equal m a c = Ok VTrue.
Proof. intro m. do 4 eexists. split; [reflexivity|]. repeat split. Qed.
