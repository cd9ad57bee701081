From Coq Require Import ZArith Bool List Lia Arith.
From Verif Require Import Base FrameModel FrameSpec.
Import ListNotations.
Local Open Scope nat_scope.

(** ** Lists *)

Lemma put_app {A} (p : list A) x q v : put (p ++ x :: q) (length p) v = Ok (p ++ v :: q).
Proof. induction p; simpl; [reflexivity|]. rewrite IHp. reflexivity. Qed.

Lemma get_nth {A} (l : list A) i v : nth_error l i = Some v -> get l i = Ok v.
Proof. unfold get. intros ->. reflexivity. Qed.

Lemma put_ok {A} (l : list A) i v : i < length l ->
  exists l', put l i v = Ok l' /\ length l' = length l /\ nth_error l' i = Some v /\
             (forall j, j <> i -> nth_error l' j = nth_error l j).
Proof.
  revert i. induction l as [|h t IH]; simpl; intros i H; [lia|].
  destruct i as [|i].
  - exists (v :: t). repeat split; auto. intros [|j] Hj; [lia|reflexivity].
  - destruct (IH i ltac:(lia)) as (l' & -> & Hl & Hi & Ho).
    exists (h :: l'). simpl. repeat split; auto.
    intros [|j] Hj; [reflexivity|]. simpl. apply Ho. lia.
Qed.

(** The elements of [xs] whose flag is [b]. *)
Fixpoint pick {A} (b : bool) (flags : list bool) (xs : list A) : list A :=
  match flags, xs with
  | f :: fs, x :: xs => if Bool.eqb f b then x :: pick b fs xs else pick b fs xs
  | _, _ => []
  end.
Definition num (b : bool) (flags : list bool) : nat := count_occ Bool.bool_dec flags b.

Lemma num_cons b f fs : num b (f :: fs) = (if Bool.eqb f b then 1 else 0) + num b fs.
Proof. unfold num. simpl. destruct (bool_dec f b); destruct f, b; simpl; congruence. Qed.

Lemma pick_length {A} b flags (xs : list A) :
  length flags = length xs -> length (pick b flags xs) = num b flags.
Proof.
  revert xs. induction flags; intros [|x xs] H; try discriminate; [reflexivity|].
  rewrite num_cons. cbn [pick]. injection H as H.
  destruct (eqb a b); simpl; rewrite IHflags; auto.
Qed.

(** ** The layout *)

Lemma separate_spec vars fo io nf ni :
  forall ss n m, separate_variables vars fo io nf ni = (ss, (n, m)) ->
  n = nf + num false vars /\ m = ni + num true vars /\ length ss = length vars /\
  (forall i b, nth_error vars i = Some b ->
     nth_error ss i = Some {| s_inner := b;
       s_idx := (if b then ni + num true (firstn i vars) + io
                 else nf + num false (firstn i vars) + fo) |}).
Proof.
  revert nf ni. induction vars as [|b vars IH]; cbn [separate_variables]; intros nf ni ss n m H.
  - injection H as <- <- <-. unfold num. simpl. repeat split; try lia. intros [|i] b; discriminate.
  - destruct b.
    + destruct (separate_variables vars fo io nf (S ni)) as [ss' [n' m']] eqn:E.
      injection H as <- <- <-. apply IH in E. destruct E as (-> & -> & E & N).
      rewrite !num_cons. cbn [eqb]. split; [lia|]. split; [lia|]. split; [simpl; lia|].
      intros [|i] b Hb; cbn [nth_error firstn] in *.
      * injection Hb as <-. unfold num. simpl. do 2 f_equal. lia.
      * rewrite (N _ _ Hb). rewrite !num_cons. cbn [eqb]. destruct b; do 2 f_equal; lia.
    + destruct (separate_variables vars fo io (S nf) ni) as [ss' [n' m']] eqn:E.
      injection H as <- <- <-. apply IH in E. destruct E as (-> & -> & E & N).
      rewrite !num_cons. cbn [eqb]. split; [lia|]. split; [lia|]. split; [simpl; lia|].
      intros [|i] b Hb; cbn [nth_error firstn] in *.
      * injection Hb as <-. unfold num. simpl. do 2 f_equal. lia.
      * rewrite (N _ _ Hb). rewrite !num_cons. cbn [eqb]. destruct b; do 2 f_equal; lia.
Qed.

Definition wants_inner (s : scope) : bool :=
  sc_requires_context s || (0 <? num true (sc_args s) + num true (sc_locals s)) || sc_catches s || sc_self s.

Lemma prepare_spec s :
  let l := prepare_frame s in
  ly_arg_inner_access l = sc_args s /\
  ly_size_frame l = 2 + (num false (sc_args s) + num false (sc_locals s)) /\
  ly_size_inner l = (if wants_inner s then 2 + (num true (sc_args s) + num true (sc_locals s)) else 0) /\
  length (ly_args l) = length (sc_args s) /\ length (ly_locals l) = length (sc_locals s) /\
  (forall i b, nth_error (sc_args s) i = Some b ->
     nth_error (ly_args l) i = Some {| s_inner := b; s_idx := 2 + num b (firstn i (sc_args s)) |}) /\
  (forall i b, nth_error (sc_locals s) i = Some b ->
     nth_error (ly_locals l) i =
       Some {| s_inner := b; s_idx := 2 + num b (sc_args s) + num b (firstn i (sc_locals s)) |}).
Proof.
  unfold prepare_frame, ARG_OFFSET.
  destruct (separate_variables (sc_args s) 2 2 0 0) as [aslots [na nai]] eqn:EA.
  destruct (separate_variables (sc_locals s) (2 + na) (2 + nai) 0 0) as [lslots [nl nli]] eqn:EL.
  apply separate_spec in EA. destruct EA as (-> & -> & LA & NA).
  apply separate_spec in EL. destruct EL as (-> & -> & LL & NL).
  cbn [ly_arg_inner_access ly_size_frame ly_size_inner ly_args ly_locals].
  unfold wants_inner. rewrite !Nat.add_0_l.
  split; [reflexivity|]. split; [lia|]. split.
  { destruct (num true (sc_args s) + num true (sc_locals s)) eqn:E;
      destruct (sc_requires_context s || _ || _ || _) eqn:W; try lia.
    simpl in W. rewrite orb_true_r in W. discriminate. }
  split; [assumption|]. split; [assumption|]. split.
  - intros i b H. rewrite (NA _ _ H). destruct b; do 2 f_equal; lia.
  - intros i b H. rewrite (NL _ _ H). destruct b; do 2 f_equal; lia.
Qed.

Lemma num_firstn_lt b vars i : nth_error vars i = Some b -> num b (firstn i vars) < num b vars.
Proof.
  revert i. induction vars as [|v vars IH]; intros [|i] H; try discriminate.
  - injection H as ->. cbn [firstn]. rewrite num_cons, eqb_reflx. unfold num at 1. simpl. lia.
  - cbn [firstn]. rewrite !num_cons. specialize (IH _ H). lia.
Qed.


Lemma num_firstn_mono b vars i j : nth_error vars i = Some b -> i < j ->
  num b (firstn i vars) < num b (firstn j vars).
Proof.
  revert i j. induction vars as [|v vars IH]; intros [|i] [|j] H L; try discriminate; try lia.
  - injection H as ->. cbn [firstn]. rewrite num_cons, eqb_reflx. unfold num at 1. simpl. lia.
  - cbn [firstn]. rewrite !num_cons. specialize (IH i j H). lia.
Qed.

Lemma num_firstn_inj b vars i j : nth_error vars i = Some b -> nth_error vars j = Some b ->
  num b (firstn i vars) = num b (firstn j vars) -> i = j.
Proof.
  intros Hi Hj E.
  destruct (Nat.lt_trichotomy i j) as [L | [L | L]]; [|assumption|].
  - pose proof (num_firstn_mono b vars i j Hi L). lia.
  - pose proof (num_firstn_mono b vars j i Hj L). lia.
Qed.

Lemma pick_nth {A} flags (xs : list A) i b x :
  nth_error flags i = Some b -> nth_error xs i = Some x ->
  nth_error (pick b flags xs) (num b (firstn i flags)) = Some x.
Proof.
  revert flags xs. induction i as [|i IH]; intros [|f fs] [|y ys] Hf Hx; try discriminate;
    cbn [nth_error firstn pick] in *.
  - injection Hf as ->. injection Hx as ->. rewrite eqb_reflx. reflexivity.
  - rewrite num_cons. destruct (eqb f b) eqn:E; cbn [nth_error Nat.add]; apply IH; assumption.
Qed.

(** ** Created frames, in closed form *)

Definition frame_of (s : scope) (rcvr : value) (args : list value) : list cell :=
  CInner (if wants_inner s then
            Some (VTrue :: rcvr :: pick true (sc_args s) args ++ repeat VNil (num true (sc_locals s)))
          else None)
  :: CObj rcvr :: map CObj (pick false (sc_args s) args) ++ repeat (CObj VNil) (num false (sc_locals s)).

Lemma new_frame_spec r n inner :
  new_frame r (S (S n)) inner = Ok (CInner inner :: CObj r :: repeat (CObj VNil) n).
Proof. reflexivity. Qed.
Lemma new_inner_spec r n : new_inner r (S (S n)) = Ok (VTrue :: r :: repeat VNil n).
Proof. reflexivity. Qed.


Lemma ast_without_spec todo : forall (F : list cell) done acc m,
  ast_set_without_inner (F ++ repeat (CObj VNil) (length todo + m)) (done ++ todo) acc
    (length done) (length F) (length todo)
  = Ok (F ++ map CObj todo ++ repeat (CObj VNil) m).
Proof.
  induction todo as [|a todo IH]; intros F done acc m; cbn [length ast_set_without_inner]; [reflexivity|].
  rewrite (get_nth _ _ a) by (rewrite nth_error_app2, Nat.sub_diag by lia; reflexivity).
  cbn [bind]. cbn [Nat.add repeat]. rewrite put_app. cbn [bind].
  replace (F ++ CObj a :: repeat (CObj VNil) (length todo + m))
    with ((F ++ [CObj a]) ++ repeat (CObj VNil) (length todo + m)) by (rewrite <- app_assoc; reflexivity).
  replace (done ++ a :: todo) with ((done ++ [a]) ++ todo) by (rewrite <- app_assoc; reflexivity).
  replace (S (length done)) with (length (done ++ [a])) by (rewrite app_length; simpl; lia).
  replace (S (length F)) with (length (F ++ [CObj a])) by (rewrite app_length; simpl; lia).
  rewrite IH. rewrite <- app_assoc. reflexivity.
Qed.

Lemma ast_with_spec acct : forall todo (F : list cell) (I : list value) done accd m k,
  length acct = length todo -> length accd = length done ->
  ast_set_with_inner (F ++ repeat (CObj VNil) (num false acct + m)) (I ++ repeat VNil (num true acct + k))
    (done ++ todo) (accd ++ acct) (length done) (length F) (length I) (length acct)
  = Ok (F ++ map CObj (pick false acct todo) ++ repeat (CObj VNil) m,
        I ++ pick true acct todo ++ repeat VNil k).
Proof.
  induction acct as [|b acct IH]; intros [|a todo] F I done accd m k L D; try discriminate;
    cbn [length ast_set_with_inner pick]; [reflexivity|].
  rewrite (get_nth _ _ b) by (rewrite <- D, nth_error_app2, Nat.sub_diag by lia; reflexivity).
  rewrite (get_nth _ _ a) by (rewrite nth_error_app2, Nat.sub_diag by lia; reflexivity).
  cbn [bind]. injection L as L.
  assert (Ed : done ++ a :: todo = (done ++ [a]) ++ todo) by (rewrite <- app_assoc; reflexivity).
  assert (Ea : accd ++ b :: acct = (accd ++ [b]) ++ acct) by (rewrite <- app_assoc; reflexivity).
  assert (El : S (length done) = length (done ++ [a])) by (rewrite app_length; simpl; lia).
  assert (D' : length (accd ++ [b]) = length (done ++ [a])) by (rewrite !app_length; simpl; lia).
  rewrite Ed, Ea, El. rewrite !num_cons.
  destruct b; cbn [eqb Nat.add repeat]; rewrite put_app; cbn [bind].
  - replace (I ++ a :: repeat VNil (num true acct + k))
      with ((I ++ [a]) ++ repeat VNil (num true acct + k)) by (rewrite <- app_assoc; reflexivity).
    replace (S (length I)) with (length (I ++ [a])) by (rewrite app_length; simpl; lia).
    rewrite (IH todo F (I ++ [a]) (done ++ [a]) (accd ++ [true]) m k L D').
    rewrite <- !app_assoc. reflexivity.
  - replace (F ++ CObj a :: repeat (CObj VNil) (num false acct + m))
      with ((F ++ [CObj a]) ++ repeat (CObj VNil) (num false acct + m)) by (rewrite <- app_assoc; reflexivity).
    replace (S (length F)) with (length (F ++ [CObj a])) by (rewrite app_length; simpl; lia).
    rewrite (IH todo (F ++ [CObj a]) I (done ++ [a]) (accd ++ [false]) m k L D').
    rewrite <- !app_assoc. reflexivity.
Qed.

Lemma pick_all_false {A} flags (xs : list A) : length flags = length xs -> num true flags = 0 ->
  pick false flags xs = xs /\ pick true flags xs = [].
Proof.
  revert xs. induction flags as [|f fs IH]; intros [|x xs] L N; try discriminate; [auto|].
  rewrite num_cons in N. cbn [pick]. destruct f; cbn [eqb] in *; [lia|].
  injection L as L. destruct (IH xs L ltac:(lia)) as [-> ->]. auto.
Qed.

Lemma num_false_all flags : num true flags = 0 -> num false flags = length flags.
Proof.
  induction flags as [|f fs IH]; [reflexivity|]. rewrite !num_cons. destruct f; cbn [eqb length]; lia.
Qed.

Lemma wants_inner_false s : wants_inner s = false -> num true (sc_args s) = 0 /\ num true (sc_locals s) = 0.
Proof.
  unfold wants_inner. intros H.
  apply orb_false_elim in H. destruct H as [H _]. apply orb_false_elim in H. destruct H as [H _].
  apply orb_false_elim in H. destruct H as [_ H]. apply Nat.ltb_ge in H. lia.
Qed.

Lemma args_spec s rcvr args :
  length args = length (sc_args s) ->
  create_frame_args rcvr args (sc_args s)
    (ly_size_frame (prepare_frame s)) (ly_size_inner (prepare_frame s)) = Ok (frame_of s rcvr args).
Proof.
  intros L. destruct (prepare_spec s) as (_ & -> & -> & _).
  unfold create_frame_args, frame_of. rewrite L, Nat.eqb_refl.
  destruct (wants_inner s) eqn:W.
  - cbn [Nat.ltb Nat.leb Nat.add]. rewrite new_inner_spec. cbn [bind].
    rewrite new_frame_spec. cbn [bind].
    pose proof (ast_with_spec (sc_args s) args [CInner (Some (VTrue :: rcvr :: repeat VNil (num true (sc_args s) + num true (sc_locals s)))); CObj rcvr] [VTrue; rcvr] [] [] (num false (sc_locals s)) (num true (sc_locals s)) (eq_sym L) eq_refl) as H.
    cbn [app length] in H. rewrite H. reflexivity.
  - destruct (wants_inner_false _ W) as [Na Nl].
    cbn [Nat.ltb Nat.leb Nat.add]. rewrite new_frame_spec. cbn [bind].
    destruct (pick_all_false _ _ (eq_sym L) Na) as [-> _].
    rewrite (num_false_all _ Na).
    pose proof (ast_without_spec args [CInner None; CObj rcvr] [] (sc_args s) (num false (sc_locals s))) as H.
    cbn [app length] in H. rewrite L in H. exact H.
Qed.

Lemma one_spec s rcvr : sc_args s = [] ->
  create_frame_1 rcvr (ly_size_frame (prepare_frame s)) (ly_size_inner (prepare_frame s))
  = Ok (frame_of s rcvr []).
Proof.
  intros E. destruct (prepare_spec s) as (_ & -> & -> & _). rewrite E.
  unfold create_frame_1, frame_of. rewrite E. unfold num at 1 3. cbn [count_occ Nat.add pick].
  destruct (wants_inner s); reflexivity.
Qed.

Lemma two_spec s rcvr a b : sc_args s = [b] ->
  create_frame_2 rcvr a b (ly_size_frame (prepare_frame s)) (ly_size_inner (prepare_frame s))
  = Ok (frame_of s rcvr [a]).
Proof.
  intros E. destruct (prepare_spec s) as (_ & -> & -> & _).
  unfold create_frame_2, frame_of. destruct (wants_inner s) eqn:W.
  - rewrite E. rewrite !num_cons. destruct b; cbn; reflexivity.
  - destruct (wants_inner_false _ W) as [Na _]. rewrite E in *.
    destruct b; [discriminate|]. cbn. reflexivity.
Qed.

Lemma three_spec s rcvr a b x y : sc_args s = [x; y] ->
  (if 0 <? ly_size_inner (prepare_frame s)
   then create_frame_3_with rcvr a b x y (ly_size_frame (prepare_frame s)) (ly_size_inner (prepare_frame s))
   else create_frame_3_with rcvr a b false false (ly_size_frame (prepare_frame s)) (ly_size_inner (prepare_frame s)))
  = Ok (frame_of s rcvr [a; b]).
Proof.
  intros E. destruct (prepare_spec s) as (_ & -> & -> & _).
  unfold create_frame_3_with, frame_of. destruct (wants_inner s) eqn:W.
  - rewrite E. rewrite !num_cons. destruct x, y; cbn; reflexivity.
  - destruct (wants_inner_false _ W) as [Na _]. rewrite E in *.
    destruct x, y; try discriminate. cbn. reflexivity.
Qed.

Lemma bc_access s : bc_arg_inner_access (prepare_frame s) = rev (sc_args s).
Proof.
  unfold bc_arg_inner_access. destruct (prepare_spec s) as (-> & _).
  destruct (sc_args s) as [|a [|b t]]; reflexivity.
Qed.

Lemma stack_nth (below above args : list value) rcvr done a todo :
  args = done ++ a :: todo ->
  get (below ++ rcvr :: args ++ above) (length below + length args - length todo) = Ok a.
Proof.
  intros ->. apply get_nth. rewrite app_length. cbn [length].
  replace (length below + (length done + S (length todo)) - length todo)
    with (length below + S (length done)) by lia.
  rewrite nth_error_app2 by lia. replace (length below + S (length done) - length below) with (S (length done)) by lia.
  cbn [nth_error]. rewrite <- app_assoc. rewrite nth_error_app2, Nat.sub_diag by lia. reflexivity.
Qed.

Lemma bc_without_spec below above rcvr args : forall todo done (F : list cell) m,
  args = done ++ todo ->
  bc_set_without_inner (F ++ repeat (CObj VNil) (length todo + m)) (below ++ rcvr :: args ++ above)
    (length below + length args) (length F) (length todo)
  = Ok (F ++ map CObj todo ++ repeat (CObj VNil) m).
Proof.
  induction todo as [|a todo IH]; intros done F m E; cbn [length bc_set_without_inner]; [reflexivity|].
  rewrite (stack_nth below above args rcvr done a todo E). cbn [bind Nat.add repeat].
  rewrite put_app. cbn [bind].
  replace (F ++ CObj a :: repeat (CObj VNil) (length todo + m))
    with ((F ++ [CObj a]) ++ repeat (CObj VNil) (length todo + m)) by (rewrite <- app_assoc; reflexivity).
  replace (S (length F)) with (length (F ++ [CObj a])) by (rewrite app_length; simpl; lia).
  rewrite (IH (done ++ [a])) by (rewrite E, <- app_assoc; reflexivity).
  rewrite <- app_assoc. reflexivity.
Qed.

Lemma rev_nth (accd acct : list bool) b :
  get (rev (accd ++ b :: acct)) (length acct) = Ok b.
Proof.
  apply get_nth. rewrite rev_app_distr. cbn [rev]. rewrite <- app_assoc. cbn [app].
  rewrite nth_error_app2 by (rewrite rev_length; lia). rewrite rev_length, Nat.sub_diag. reflexivity.
Qed.

Lemma bc_with_spec below above rcvr args acc : forall acct todo done accd (F : list cell) (I : list value) m k,
  args = done ++ todo -> acc = accd ++ acct -> length acct = length todo -> length accd = length done ->
  bc_set_with_inner (F ++ repeat (CObj VNil) (num false acct + m)) (I ++ repeat VNil (num true acct + k))
    (rev acc) (below ++ rcvr :: args ++ above) (length below + length args) (length F) (length I) (length acct)
  = Ok (F ++ map CObj (pick false acct todo) ++ repeat (CObj VNil) m,
        I ++ pick true acct todo ++ repeat VNil k).
Proof.
  induction acct as [|b acct IH]; intros [|a todo] done accd F I m k E Ea L D; try discriminate;
    cbn [length bc_set_with_inner pick]; [reflexivity|].
  injection L as L.
  rewrite L. rewrite (stack_nth below above args rcvr done a todo E). rewrite <- L. cbn [bind].
  rewrite Ea at 1. rewrite rev_nth. cbn [bind].
  assert (E' : args = (done ++ [a]) ++ todo) by (rewrite E, <- app_assoc; reflexivity).
  assert (Ea' : acc = (accd ++ [b]) ++ acct) by (rewrite Ea, <- app_assoc; reflexivity).
  assert (D' : length (accd ++ [b]) = length (done ++ [a])) by (rewrite !app_length; simpl; lia).
  rewrite !num_cons.
  destruct b; cbn [eqb Nat.add repeat]; rewrite put_app; cbn [bind].
  - replace (I ++ a :: repeat VNil (num true acct + k))
      with ((I ++ [a]) ++ repeat VNil (num true acct + k)) by (rewrite <- app_assoc; reflexivity).
    replace (S (length I)) with (length (I ++ [a])) by (rewrite app_length; simpl; lia).
    rewrite (IH todo _ _ F (I ++ [a]) m k E' Ea' L D'). rewrite <- !app_assoc. reflexivity.
  - replace (F ++ CObj a :: repeat (CObj VNil) (num false acct + m))
      with ((F ++ [CObj a]) ++ repeat (CObj VNil) (num false acct + m)) by (rewrite <- app_assoc; reflexivity).
    replace (S (length F)) with (length (F ++ [CObj a])) by (rewrite app_length; simpl; lia).
    rewrite (IH todo _ _ (F ++ [CObj a]) I m k E' Ea' L D'). rewrite <- !app_assoc. reflexivity.
Qed.

Lemma stack_spec s rcvr args below above :
  length args = length (sc_args s) ->
  bc_create_frame (rev (sc_args s)) (ly_size_frame (prepare_frame s)) (ly_size_inner (prepare_frame s))
    (below ++ rcvr :: args ++ above) (length below + length args) (S (length args))
  = Ok (frame_of s rcvr args).
Proof.
  intros L. destruct (prepare_spec s) as (_ & -> & -> & _).
  unfold bc_create_frame, frame_of. cbn [Nat.sub]. rewrite Nat.sub_0_r, rev_length, L, Nat.eqb_refl.
  replace (length below + length (sc_args s) - length (sc_args s)) with (length below) by lia.
  rewrite (get_nth _ _ rcvr) by (rewrite nth_error_app2, Nat.sub_diag by lia; reflexivity).
  cbn [bind].
  destruct (wants_inner s) eqn:W.
  - cbn [Nat.ltb Nat.leb Nat.add]. rewrite new_inner_spec. cbn [bind].
    rewrite new_frame_spec. cbn [bind].
    pose proof (bc_with_spec below above rcvr args (sc_args s) (sc_args s) args [] [] [CInner (Some (VTrue :: rcvr :: repeat VNil (num true (sc_args s) + num true (sc_locals s)))); CObj rcvr] [VTrue; rcvr] (num false (sc_locals s)) (num true (sc_locals s)) eq_refl eq_refl (eq_sym L) eq_refl) as H.
    cbn [app length] in H. rewrite L in H. rewrite H. reflexivity.
  - destruct (wants_inner_false _ W) as [Na Nl].
    cbn [Nat.ltb Nat.leb Nat.add]. rewrite new_frame_spec. cbn [bind].
    destruct (pick_all_false _ _ (eq_sym L) Na) as [-> _].
    rewrite (num_false_all _ Na).
    pose proof (bc_without_spec below above rcvr args args [] [CInner None; CObj rcvr] (num false (sc_locals s)) eq_refl) as H.
    cbn [app length] in H. rewrite L in H. exact H.
Qed.

Lemma ast_enter_spec s e rcvr args :
  length args = length (sc_args s) -> ast_accepts e (length args) ->
  ast_enter e (prepare_frame s) rcvr args = Ok (frame_of s rcvr args).
Proof.
  intros L A. pose proof (prepare_spec s) as (HA & _).
  destruct e; cbn [ast_accepts] in A.
  - destruct args; [|discriminate]. cbn [ast_enter]. apply one_spec. destruct (sc_args s); [reflexivity|discriminate].
  - destruct args as [|a [|]]; try discriminate. cbn [ast_enter]. rewrite HA.
    destruct (sc_args s) as [|b [|]] eqn:E; try discriminate. cbn [get nth_error bind].
    apply two_spec. assumption.
  - destruct args as [|a [|b [|]]]; try discriminate. cbn [ast_enter]. rewrite HA.
    destruct (sc_args s) as [|x [|y [|]]] eqn:E; try discriminate.
    unfold ast_create_frame_3. cbn [get nth_error bind]. apply (three_spec _ rcvr a b _ _ E).
  - cbn [ast_enter]. rewrite HA. destruct args; apply args_spec; assumption.
Qed.

Lemma bc_enter_spec s e rcvr args :
  length args = length (sc_args s) -> bc_accepts e (length args) ->
  bc_enter e (prepare_frame s) rcvr args = Ok (frame_of s rcvr args).
Proof.
  intros L A.
  destruct e; cbn [bc_accepts] in A.
  - destruct args; [|discriminate]. cbn [bc_enter]. apply one_spec. destruct (sc_args s); [reflexivity|discriminate].
  - destruct args as [|a [|]]; try discriminate. cbn [bc_enter]. rewrite bc_access.
    destruct (sc_args s) as [|b [|]] eqn:E; try discriminate. cbn [rev app get nth_error bind].
    apply two_spec. assumption.
  - destruct args as [|a [|b [|]]]; try discriminate. cbn [bc_enter]. rewrite bc_access.
    destruct (sc_args s) as [|x [|y [|]]] eqn:E; try discriminate.
    unfold bc_create_frame_3. cbn [rev app get nth_error bind]. apply (three_spec _ rcvr a b _ _ E).
  - cbn [bc_enter]. rewrite bc_access.
    transitivity (bc_create_frame (rev (sc_args s)) (ly_size_frame (prepare_frame s)) (ly_size_inner (prepare_frame s))
    (below ++ rcvr :: args ++ above) (length below + length args) (S (length args))); [destruct args; reflexivity|].
    apply stack_spec. assumption.
Qed.

(** ** Places of variables *)

Definition size_of (s : scope) (inner : bool) : nat :=
  if inner then ly_size_inner (prepare_frame s) else ly_size_frame (prepare_frame s).

Lemma nth_declared {A} (l : list A) i : i < length l -> exists b, nth_error l i = Some b.
Proof. intros H. destruct (nth_error l i) eqn:E; [eauto|]. apply nth_error_None in E. lia. Qed.

Lemma num_true_wants s : 0 < num true (sc_args s) + num true (sc_locals s) -> wants_inner s = true.
Proof. intros H. unfold wants_inner. apply Nat.ltb_lt in H. rewrite H, orb_true_r. reflexivity. Qed.

Lemma place_spec s x : declared s x ->
  exists sl, place s x = Some sl /\ (s_inner sl = true <-> used_by_nested_block s x) /\
    1 <= s_idx sl < size_of s (s_inner sl) /\
    (s_idx sl = 1 <-> x = Self).
Proof.
  destruct (prepare_spec s) as (_ & SF & SI & LA & LL & NA & NL). unfold size_of.
  destruct x as [|i|i]; cbn [declared place used_by_nested_block]; intros D.
  - eexists. split; [reflexivity|]. cbn [s_inner s_idx]. split; [reflexivity|].
    rewrite SF, SI. unfold FRAME_AND_INNER_RCVR_IDX. split; [|split; reflexivity].
    destruct (sc_self s) eqn:E; [|lia].
    unfold wants_inner. rewrite E, orb_true_r. lia.
  - destruct (nth_declared _ _ D) as [b Hb]. rewrite (NA _ _ Hb), Hb.
    eexists. split; [reflexivity|]. cbn [s_inner s_idx].
    split; [split; [intros ->; reflexivity | congruence]|].
    pose proof (num_firstn_lt _ _ _ Hb). split; [|split; [lia|discriminate]].
    destruct b; [|rewrite SF; lia]. rewrite SI, num_true_wants by lia. lia.
  - destruct (nth_declared _ _ D) as [b Hb]. rewrite (NL _ _ Hb), Hb.
    eexists. split; [reflexivity|]. cbn [s_inner s_idx].
    split; [split; [intros ->; reflexivity | congruence]|].
    pose proof (num_firstn_lt _ _ _ Hb). split; [|split; [lia|discriminate]].
    destruct b; [|rewrite SF; lia]. rewrite SI, num_true_wants by lia. lia.
Qed.

Lemma place_inj s x y sl : declared s x -> declared s y ->
  place s x = Some sl -> place s y = Some sl -> x = y.
Proof.
  destruct (prepare_spec s) as (_ & _ & _ & _ & _ & NA & NL).
  intros Dx Dy Px Py.
  destruct (place_spec s x Dx) as (sx & Ex & _ & _ & Ix).
  destruct (place_spec s y Dy) as (sy & Ey & _ & _ & Iy).
  rewrite Px in Ex. injection Ex as <-. rewrite Py in Ey. injection Ey as <-.
  destruct x as [|i|i], y as [|j|j]; try reflexivity;
    try (destruct (proj1 Ix (proj2 Iy eq_refl)); reflexivity);
    try (destruct (proj1 Iy (proj2 Ix eq_refl)); reflexivity); cbn [declared place] in *;
    destruct (nth_declared _ _ Dx) as [bx Hx]; destruct (nth_declared _ _ Dy) as [by_ Hy].
  - rewrite (NA _ _ Hx) in Px. rewrite (NA _ _ Hy) in Py. rewrite <- Py in Px. injection Px as E1 E2. subst by_.
    f_equal. eapply num_firstn_inj; eauto.
  - rewrite (NA _ _ Hx) in Px. rewrite (NL _ _ Hy) in Py. rewrite <- Py in Px. injection Px as E1 E2. subst by_.
    pose proof (num_firstn_lt _ _ _ Hx). lia.
  - rewrite (NL _ _ Hx) in Px. rewrite (NA _ _ Hy) in Py. rewrite <- Py in Px. injection Px as E1 E2. subst by_.
    pose proof (num_firstn_lt _ _ _ Hy). lia.
  - rewrite (NL _ _ Hx) in Px. rewrite (NL _ _ Hy) in Py. rewrite <- Py in Px. injection Px as E1 E2. subst by_.
    f_equal. eapply num_firstn_inj; eauto. lia.
Qed.

(** ** Reading and writing *)

Definition slot_value (f : list cell) (sl : slot) : option value :=
  if s_inner sl then
    match nth_error f 0 with Some (CInner (Some i)) => nth_error i (s_idx sl) | _ => None end
  else
    match s_idx sl with
    | 0 => None
    | S _ => match nth_error f (s_idx sl) with Some (CObj v) => Some v | _ => None end
    end.

Lemma ast_read_slot f sl v : slot_value f sl = Some v -> ast_read f sl = Ok v.
Proof.
  unfold slot_value, ast_read, read_inner, read_frame, frame_inner, get, FRAME_INNER_IDX.
  destruct (s_inner sl).
  - destruct (nth_error f 0) as [[|[i|]]|]; try discriminate. cbn [bind]. intros ->. reflexivity.
  - destruct (s_idx sl); [discriminate|]. destruct (nth_error f (S n)) as [[|]|]; try discriminate.
    intros H. injection H as ->. reflexivity.
Qed.

Lemma bc_same_read f sl : 1 <= s_idx sl <= 255 -> bc_read f sl = ast_read f sl.
Proof.
  intros [H1 H2]. unfold bc_read. apply Nat.leb_le in H1, H2. rewrite H1, H2. cbn [andb].
  unfold ast_read, access_bytecode, FRAME_AND_INNER_RCVR_IDX. cbn [Nat.eqb Nat.add].
  destruct (s_inner sl), (s_idx sl) as [|[|[|[|]]]]; reflexivity.
Qed.

Lemma bc_same_write f sl v : 1 <= s_idx sl <= 255 -> bc_write f sl v = ast_write f sl v.
Proof.
  intros [H1 H2]. unfold bc_write. apply Nat.leb_le in H1, H2. rewrite H1, H2. cbn [andb].
  unfold ast_write, access_bytecode, FRAME_AND_INNER_RCVR_IDX. cbn [Nat.eqb Nat.add].
  destruct (s_inner sl), (s_idx sl) as [|[|[|[|]]]]; reflexivity.
Qed.

Lemma frame_of_slot s rcvr args x sl v :
  length args = length (sc_args s) -> declared s x -> place s x = Some sl ->
  initially rcvr args x = Some v -> slot_value (frame_of s rcvr args) sl = Some v.
Proof.
  intros L D P V. destruct (prepare_spec s) as (_ & _ & _ & _ & _ & NA & NL).
  unfold slot_value, frame_of. cbn [nth_error].
  destruct x as [|i|i]; cbn [declared place initially] in *.
  - injection P as <-. injection V as ->. cbn [s_inner s_idx FRAME_AND_INNER_RCVR_IDX nth_error].
    destruct (sc_self s) eqn:E; [|reflexivity].
    unfold wants_inner. rewrite E, orb_true_r. reflexivity.
  - destruct (nth_declared _ _ D) as [b Hb]. rewrite (NA _ _ Hb) in P. injection P as <-.
    cbn [s_inner s_idx]. pose proof (num_firstn_lt _ _ _ Hb).
    pose proof (pick_length b (sc_args s) args (eq_sym L)).
    destruct b.
    + rewrite num_true_wants by lia. cbn [Nat.add nth_error].
      rewrite nth_error_app1 by lia. apply (pick_nth _ _ i); assumption.
    + cbn [Nat.add nth_error]. rewrite nth_error_app1 by (rewrite map_length; lia).
      rewrite nth_error_map. rewrite (pick_nth _ _ i _ v); auto.
  - injection V as <-. destruct (nth_declared _ _ D) as [b Hb]. rewrite (NL _ _ Hb) in P. injection P as <-.
    cbn [s_inner s_idx]. pose proof (num_firstn_lt _ _ _ Hb).
    pose proof (pick_length b (sc_args s) args (eq_sym L)).
    destruct b.
    + rewrite num_true_wants by lia. cbn [Nat.add nth_error].
      rewrite nth_error_app2 by lia.
      apply nth_error_repeat. lia.
    + cbn [Nat.add nth_error]. rewrite nth_error_app2 by (rewrite map_length; lia).
      rewrite map_length. rewrite nth_error_repeat by lia. reflexivity.
Qed.

(** Writing through a slot. *)
Definition shaped (s : scope) (f : list cell) : Prop :=
  length f = ly_size_frame (prepare_frame s) /\
  (if wants_inner s
   then exists i, nth_error f 0 = Some (CInner (Some i)) /\ length i = ly_size_inner (prepare_frame s)
   else nth_error f 0 = Some (CInner None)) /\
  (forall j, 0 < j < length f -> exists v, nth_error f j = Some (CObj v)).

Lemma frame_of_shaped s rcvr args : length args = length (sc_args s) -> shaped s (frame_of s rcvr args).
Proof.
  intros L. destruct (prepare_spec s) as (_ & SF & SI & _). unfold shaped. rewrite SF, SI.
  unfold frame_of. split; [|split].
  - cbn [length]. rewrite app_length, map_length, repeat_length, pick_length by auto. lia.
  - destruct (wants_inner s); [|reflexivity]. eexists. split; [reflexivity|].
    cbn [length]. rewrite app_length, repeat_length, pick_length by auto. lia.
  - intros [|[|j]] Hj; [lia | eexists; reflexivity |]. cbn [nth_error length] in *.
    rewrite app_length, map_length, repeat_length in Hj.
    destruct (lt_dec j (length (pick false (sc_args s) args))).
    + rewrite nth_error_app1 by (rewrite map_length; lia). rewrite nth_error_map.
      destruct (nth_declared _ _ l) as [v ->]. simpl. eauto.
    + rewrite nth_error_app2 by (rewrite map_length; lia). rewrite map_length, nth_error_repeat by lia. eauto.
Qed.

Lemma slot_some s f x sl : shaped s f -> declared s x -> place s x = Some sl ->
  exists v, slot_value f sl = Some v.
Proof.
  intros (SF & SI & SO) D P.
  destruct (place_spec s x D) as (sl' & E & _ & B & _). rewrite P in E. injection E as <-.
  unfold slot_value, size_of in *. destruct (s_inner sl).
  - destruct (prepare_spec s) as (_ & _ & EI & _).
    destruct (wants_inner s); [|rewrite EI in B; lia].
    destruct SI as (i & -> & LI). apply nth_declared. lia.
  - destruct (s_idx sl); [lia|]. destruct (SO (S n)) as [v ->]; [lia|]. eauto.
Qed.

Lemma write_spec s f x sl v : shaped s f -> declared s x -> place s x = Some sl ->
  exists f', ast_write f sl v = Ok f' /\ shaped s f' /\ slot_value f' sl = Some v /\
    forall sl', sl' <> sl -> 1 <= s_idx sl' -> slot_value f' sl' = slot_value f sl'.
Proof.
  intros Sh D P. pose proof Sh as (SF & SI & SO).
  destruct (place_spec s x D) as (sl0 & E & _ & B & _). rewrite P in E. injection E as <-.
  unfold ast_write, size_of in *. destruct (s_inner sl) eqn:Si.
  - destruct (prepare_spec s) as (_ & _ & EI & _).
    destruct (wants_inner s) eqn:W; [|rewrite EI in B; lia].
    destruct SI as (i & Hi & LI).
    unfold write_inner, frame_inner, get, FRAME_INNER_IDX. rewrite Hi. cbn [bind].
    destruct (put_ok i (s_idx sl) v ltac:(lia)) as (i' & -> & Li' & Vi & Oi). cbn [bind].
    unfold with_inner, FRAME_INNER_IDX.
    destruct (put_ok f 0 (CInner (Some i'))) as (f' & -> & Lf & V0 & Of).
    { destruct f; [discriminate|simpl; lia]. }
    exists f'. split; [reflexivity|]. split; [|split].
    + split; [congruence|]. rewrite W. split; [exists i'; split; [assumption|congruence]|].
      intros j Hj. rewrite Of by lia. apply SO. lia.
    + unfold slot_value. rewrite Si, V0. assumption.
    + intros sl' Nsl Bi. unfold slot_value.
      destruct (s_inner sl') eqn:Si'.
      * rewrite V0, Hi. apply Oi. intros Ei. apply Nsl. destruct sl, sl'; simpl in *; congruence.
      * destruct (s_idx sl'); [lia|]. rewrite Of by lia. reflexivity.
  - unfold write_frame. destruct (put_ok f (s_idx sl) (CObj v) ltac:(lia)) as (f' & -> & Lf & Vf & Of).
    exists f'. split; [reflexivity|]. split; [|split].
    + split; [congruence|]. rewrite Of by lia. split; [assumption|].
      intros j Hj. destruct (Nat.eq_dec j (s_idx sl)) as [-> | Nj]; [eauto|].
      rewrite Of by assumption. apply SO. lia.
    + unfold slot_value. rewrite Si, Vf. destruct (s_idx sl); [lia|reflexivity].
    + intros sl' Nsl Bi. unfold slot_value.
      destruct (s_inner sl') eqn:Si'.
      * rewrite Of by lia. reflexivity.
      * destruct (s_idx sl') eqn:Ej; [lia|]. rewrite Of; [reflexivity|].
        intros Ei. apply Nsl. destruct sl, sl'; simpl in *; congruence.
Qed.

Lemma slot_value_read f sl v : ast_read f sl = Ok v -> 1 <= s_idx sl -> slot_value f sl = Some v.
Proof.
  unfold slot_value, ast_read, read_inner, read_frame, frame_inner, get, FRAME_INNER_IDX.
  destruct (s_inner sl).
  - destruct (nth_error f 0) as [[|[i|]]|]; try discriminate. cbn [bind].
    destruct (nth_error i (s_idx sl)); [|discriminate]. intros H _. injection H as ->. reflexivity.
  - destruct (nth_error f (s_idx sl)) as [[|]|]; try discriminate. cbn [bind].
    intros H ?. injection H as ->. destruct (s_idx sl); [lia|reflexivity].
Qed.

(** ** Nesting *)
Lemma chain_block_at blocks r inners k outer :
  chain blocks r inners -> nth_error inners k = Some outer ->
  exists n, block_at blocks r k = Ok (VObj n) /\ blocks n = Some outer.
Proof.
  intros C. revert k. induction C as [r | n o r rest B N C IH]; intros k H.
  - destruct k; discriminate.
  - destruct k as [|k]; cbn [nth_error] in H.
    + injection H as <-. exists n. split; [reflexivity|assumption].
    + cbn [block_at]. rewrite B. unfold get_from_outer, FRAME_AND_INNER_RCVR_IDX.
      assert (L : 1 < length o) by (apply nth_error_Some; congruence).
      apply Nat.ltb_lt in L. rewrite L. rewrite (get_nth _ _ _ N). cbn [bind]. apply IH. assumption.
Qed.

(** ** Entry followed by assignments *)

(** [where_] is one of the two placements; [writable] the variables that may be assigned. *)
Lemma assign_spec s rcvr args (where_ : variable -> option slot) (writable : variable -> Prop) write l :
  length args = length (sc_args s) ->
  (forall x y sl, declared s x -> declared s y -> where_ x = Some sl -> where_ y = Some sl -> x = y) ->
  (forall x, declared s x -> exists sl, where_ x = Some sl /\ 1 <= s_idx sl) ->
  (forall x, declared s x -> writable x -> where_ x = place s x) ->
  (forall x sl v, declared s x -> where_ x = Some sl -> initially rcvr args x = Some v ->
     slot_value (frame_of s rcvr args) sl = Some v) ->
  (forall f x sl v, declared s x -> where_ x = Some sl -> write f sl v = ast_write f sl v) ->
  Forall (fun p => declared s (fst p) /\ writable (fst p)) l ->
  exists f, assign_all where_ write (frame_of s rcvr args) l = Ok f /\ shaped s f /\
    forall x sl v, declared s x -> where_ x = Some sl -> latest rcvr args l x = Some v -> slot_value f sl = Some v.
Proof.
  intros L Inj Dom Wr Init Same. induction l as [|[y v] l IH]; intros F.
  - exists (frame_of s rcvr args). split; [reflexivity|]. split; [apply frame_of_shaped; assumption|].
    intros x sl v. apply Init.
  - inversion F as [|? ? [Dy Wy] F']; subst. cbn [fst] in Dy, Wy.
    destruct (IH F') as (f & E & Sh & V). cbn [assign_all]. rewrite E. cbn [bind].
    destruct (Dom y Dy) as (sl & Ey & _). rewrite Ey. rewrite (Same f y sl v Dy Ey).
    destruct (write_spec s f y sl v Sh Dy) as (f' & -> & Sh' & Vy & Vo); [rewrite <- Wr; assumption|].
    exists f'. split; [reflexivity|]. split; [assumption|].
    intros x slx w Dx Ex Lx. cbn [latest] in Lx.
    destruct (Dom x Dx) as (slx' & Ex' & Bx). rewrite Ex in Ex'. injection Ex' as <-.
    assert (Case : x = y \/ (x <> y /\ latest rcvr args l x = Some w)).
    { destruct x as [|i|i], y as [|j|j]; try (left; reflexivity); try (right; split; [discriminate | assumption]).
      - destruct (Nat.eqb_spec i j) as [-> | N]; [left; reflexivity | right; split; [congruence | assumption]].
      - destruct (Nat.eqb_spec i j) as [-> | N]; [left; reflexivity | right; split; [congruence | assumption]]. }
    destruct Case as [-> | [N Lx']].
    + assert (w = v).
      { destruct y as [|j|j]; cbn in Lx; rewrite ?Nat.eqb_refl in Lx; congruence. }
      rewrite Ex in Ey. injection Ey as ->. congruence.
    + rewrite Vo; [eapply V; eauto | | assumption].
      intros ->. apply N. eapply Inj; eauto.
Qed.

Lemma place_bound s x sl : declared s x -> place s x = Some sl ->
  1 <= s_idx sl <= 1 + length (sc_args s) + length (sc_locals s).
Proof.
  intros D P. destruct (place_spec s x D) as (sl' & E & _ & B & _). rewrite P in E. injection E as <-.
  split; [lia|]. destruct (prepare_spec s) as (_ & SF & SI & _). unfold size_of in B.
  assert (Hn : forall b fs, num b fs <= length fs).
  { intros b fs. induction fs as [|f fs IH]; [unfold num; simpl; lia|]. rewrite num_cons. simpl. destruct (eqb f b); lia. }
  pose proof (Hn true (sc_args s)). pose proof (Hn false (sc_args s)).
  pose proof (Hn true (sc_locals s)). pose proof (Hn false (sc_locals s)).
  destruct (s_inner sl); [rewrite SI in B; destruct (wants_inner s)|rewrite SF in B]; lia.
Qed.

Lemma ast_place_inj s x y sl : declared s x -> declared s y ->
  ast_place s x = Some sl -> ast_place s y = Some sl -> x = y.
Proof.
  intros Dx Dy Px Py.
  destruct (place_spec s x Dx) as (sx & Ex & _ & _ & Ix).
  destruct (place_spec s y Dy) as (sy & Ey & _ & _ & Iy).
  destruct x as [|i|i], y as [|j|j]; cbn [ast_place] in Px, Py; try reflexivity.
  all: try (apply (place_inj s _ _ sl); assumption).
  all: try (rewrite Ey in Py; injection Py as ->; injection Px as <-; cbn [s_idx] in Iy;
            destruct (proj1 Iy eq_refl); reflexivity).
  all: try (rewrite Ex in Px; injection Px as ->; injection Py as <-; cbn [s_idx] in Ix;
            destruct (proj1 Ix eq_refl); reflexivity).
Qed.

Lemma pop_old_spec below (args : list value) above r result :
  stack_pop_old_arguments_and_push_result
    (map Some below ++ Some r :: map Some args ++ above)
    (Z.of_nat (length below + length args)) (S (length args)) result
  = Ok (map Some below ++ Some result :: repeat None (length args) ++ above, Z.of_nat (length below)).
Proof.
  assert (H : forall (rargs : list value) (gone : list (option value)) n,
    n = length rargs ->
    pop_old_arguments (map Some below ++ Some r :: map Some (rev rargs) ++ gone)
      (Z.of_nat (length below + length rargs)) n
    = Ok (map Some below ++ Some r :: repeat None n ++ gone, Z.of_nat (length below))).
  { induction rargs as [|a rargs IH]; intros gone n ->; cbn [length pop_old_arguments].
    - cbn. rewrite Nat.add_0_r. reflexivity.
    - rewrite Nat2Z.id. cbn [rev]. rewrite map_app, <- app_assoc. cbn [map app].
      replace (map Some below ++ Some r :: map Some (rev rargs) ++ Some a :: gone)
        with ((map Some below ++ Some r :: map Some (rev rargs)) ++ Some a :: gone)
        by (rewrite <- app_assoc; reflexivity).
      replace (length below + S (length rargs))
        with (length (map Some below ++ Some r :: map Some (rev rargs)))
        by (rewrite app_length; cbn [length]; rewrite !map_length, rev_length; lia).
      rewrite put_app. cbn [bind].
      replace (Z.of_nat (length (map Some below ++ Some r :: map Some (rev rargs))) - 1)%Z
        with (Z.of_nat (length below + length rargs))
        by (rewrite app_length; cbn [length]; rewrite !map_length, rev_length; lia).
      rewrite <- app_assoc. cbn [app]. rewrite (IH (None :: gone) _ eq_refl).
      do 2 f_equal. f_equal. f_equal. change (repeat None (S (length rargs)) ++ gone) with (None :: repeat None (length rargs) ++ gone).
      clear. induction (length rargs) as [|k IHk]; [reflexivity|]. cbn. f_equal. exact IHk. }
  unfold stack_pop_old_arguments_and_push_result.
  assert (H2 := H (rev args) above (length args)). rewrite rev_involutive, rev_length in H2.
  specialize (H2 eq_refl).
  assert (P : forall s p n m, pop_old_arguments s p (n + m) =
              (sp <- pop_old_arguments s p n ;; pop_old_arguments (fst sp) (snd sp) m)).
  { intros s p n. revert s p. induction n as [|n IHn]; intros s p m; [reflexivity|].
    cbn [Nat.add pop_old_arguments]. destruct (put s (Z.to_nat p) None); [|reflexivity]. cbn [bind]. apply IHn. }
  replace (S (length args)) with (length args + 1) by lia. rewrite P, H2. cbn [bind fst snd pop_old_arguments].
  rewrite Nat2Z.id.
  assert (Pb : forall x q v, put (map Some below ++ x :: q) (length below) v = Ok (map Some below ++ v :: q)).
  { intros x q v. rewrite <- (map_length Some below) at 1. apply put_app. }
  rewrite Pb. cbn [bind fst snd].
  replace (Z.of_nat (length below) - 1 + 1)%Z with (Z.of_nat (length below)) by lia.
  rewrite Nat2Z.id, Pb. reflexivity.
Qed.
