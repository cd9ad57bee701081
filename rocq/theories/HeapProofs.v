From Coq Require Import ZArith Bool List Lia Permutation Sorted Arith.
From Verif Require Import Base HeapModel HeapSpec.
Import ListNotations.
Open Scope Z_scope.
Open Scope list_scope.

Notation par i := (Nat.div2 (i - 1)).
Definition d0 : entry := (0, 0%nat).
Definition at_ (h : list entry) i := nth i h d0.

(** Total counterpart of [hput]. *)
Fixpoint upd (h : list entry) (i : nat) (e : entry) : list entry :=
  match h, i with
  | [], _ => []
  | _ :: t, O => e :: t
  | x :: t, S j => x :: upd t j e
  end.
Lemma hput_ok h : forall i e, (i < length h)%nat -> hput h i e = Ok (upd h i e).
Proof.
  induction h as [|x t IH]; intros [|i] e L; cbn in *; try lia; auto. rewrite IH by lia. auto.
Qed.
Lemma hget_ok h i : (i < length h)%nat -> hget h i = Ok (at_ h i).
Proof.
  intros L. unfold hget, at_. rewrite (nth_error_nth' h d0 L). auto.
Qed.
Lemma upd_length h : forall i e, length (upd h i e) = length h.
Proof. induction h; destruct i; cbn; auto. Qed.
Lemma at_upd h : forall i e j, (i < length h)%nat -> at_ (upd h i e) j = if Nat.eqb i j then e else at_ h j.
Proof.
  unfold at_. induction h as [|x t IH]; intros [|i] e [|j] L; cbn in *; try lia; auto. apply IH; lia.
Qed.
Lemma upd_upd h : forall i e e', upd (upd h i e) i e' = upd h i e'.
Proof. induction h; destruct i; cbn; intros; f_equal; auto. Qed.
Lemma upd_same h : forall i, (i < length h)%nat -> upd h i (at_ h i) = h.
Proof. unfold at_. induction h as [|x t IH]; intros [|i] L; cbn in *; try lia; auto. f_equal. apply IH; lia. Qed.
Lemma list_ext (h h' : list entry) : length h = length h' -> (forall i, (i < length h)%nat -> at_ h i = at_ h' i) -> h = h'.
Proof. intros L E. apply (nth_ext h h' d0 d0 L E). Qed.

Lemma upd_split h i e : (i < length h)%nat -> upd h i e = firstn i h ++ e :: skipn (S i) h.
Proof. revert i. induction h as [|x t IH]; intros [|i] L; cbn in *; try lia; auto. f_equal. rewrite IH by lia. auto. Qed.
Lemma nth_upd_perm t : forall j e, (j < length t)%nat -> Permutation (nth j t d0 :: upd t j e) (e :: t).
Proof.
  induction t as [|y t IH]; intros [|j] e L; cbn in *; try lia.
  - apply perm_swap.
  - etransitivity; [apply perm_swap|]. etransitivity; [apply perm_skip, (IH j e); lia|]. apply perm_swap.
Qed.
(** Swapping two elements permutes. *)
Lemma swap_perm h : forall i j, (i < length h)%nat -> (j < length h)%nat ->
  Permutation (upd (upd h i (at_ h j)) j (at_ h i)) h.
Proof.
  unfold at_. induction h as [|x t IH]; intros [|i] [|j] Li Lj; cbn in *; try lia.
  - auto.
  - apply nth_upd_perm. lia.
  - apply nth_upd_perm. lia.
  - apply perm_skip. apply IH; lia.
Qed.

(** Parents. *)
Lemma par_lt i : (0 < i)%nat -> (par i < i)%nat.
Proof. intros. rewrite Nat.div2_div. pose proof (Nat.div_lt_upper_bound (i-1) 2 i). lia. Qed.
Lemma par_child i p : (0 < i)%nat -> par i = p <-> (i = 2 * p + 1 \/ i = 2 * p + 2)%nat.
Proof.
  intros H. rewrite Nat.div2_div. pose proof (Nat.div_mod (i - 1) 2). pose proof (Nat.mod_upper_bound (i - 1) 2). lia.
Qed.

Definition ord (h : list entry) i := fst (at_ h (par i)) <= fst (at_ h i).
Definition heap_ok (h : list entry) : Prop := forall i, (0 < i < length h)%nat -> ord h i.

(** A heap except at [pos], whose children are not below its parent. *)
Definition sd_inv (h : list entry) (pos : nat) : Prop :=
  (pos < length h)%nat
  /\ (forall i, (0 < i < length h)%nat -> i <> pos -> ord h i)
  /\ (forall c, (0 < c < length h)%nat -> par c = pos -> (0 < pos)%nat -> fst (at_ h (par pos)) <= fst (at_ h c)).

Lemma siftdown_loop_ok newitem : forall fuel h pos,
  (pos < fuel)%nat -> sd_inv (upd h pos newitem) pos ->
  exists h' pos', siftdown_loop fuel h 0 pos newitem = Ok (h', pos') /\ (pos' < length h')%nat
    /\ heap_ok (upd h' pos' newitem) /\ Permutation (upd h' pos' newitem) (upd h pos newitem).
Proof.
  induction fuel as [|fuel IH]; intros h pos F I; [lia|]. cbn [siftdown_loop].
  destruct I as (L & A & B). rewrite upd_length in *.
  destruct (Nat.ltb_spec 0 pos).
  2:{ assert (pos = 0%nat) by lia. subst. exists h, 0%nat. split; [auto|split; [auto|split; [|auto]]].
      intros i Hi. rewrite upd_length in Hi. apply A; lia. }
  assert (P := par_lt pos H). cbv zeta. set (p := par pos) in *.
  rewrite hget_ok by lia. cbn [bind]. unfold address. destruct (Z.ltb_spec (fst newitem) (fst (at_ h p))).
  2:{ exists h, pos. split; [auto|split; [auto|split; [|auto]]].
      intros i Hi. rewrite upd_length in Hi. destruct (Nat.eq_dec i pos); [|apply A; lia].
      subst. unfold ord. rewrite !at_upd by lia. fold p. rewrite Nat.eqb_refl.
      destruct (Nat.eqb_spec pos p); lia. }
  rewrite hput_ok by lia. cbn [bind].
  set (h1 := upd h pos (at_ h p)).
  assert (E : forall i, at_ (upd h1 p newitem) i = if Nat.eqb p i then newitem else if Nat.eqb pos i then at_ h p else at_ h i).
  { intros i. unfold h1. rewrite at_upd by (rewrite upd_length; lia). rewrite at_upd by lia. auto. }
  assert (E0 : forall i, at_ (upd h pos newitem) i = if Nat.eqb pos i then newitem else at_ h i).
  { intros i. rewrite at_upd by lia. auto. }
  destruct (IH h1 p) as (h' & pos' & R & L' & K & Q).
  - lia.
  - split; [unfold h1; rewrite !upd_length; lia|]. unfold ord in *. split.
    + intros i Hi Ne. unfold h1 in Hi. rewrite !upd_length in Hi. rewrite !E.
      assert (Ai := A i Hi). rewrite !E0 in Ai. assert (Bi := B i Hi). rewrite !E0 in Bi. fold p in Bi.
      destruct (Nat.eqb_spec p i); [congruence|].
      destruct (Nat.eqb_spec pos i).
      * subst i. fold p. rewrite Nat.eqb_refl. lia.
      * destruct (Nat.eqb_spec p (par i)).
        -- (* sibling *) assert (fst (at_ h (par i)) <= fst (at_ h i)).
           { destruct (Nat.eqb_spec pos (par i)); [lia|]. apply Ai; auto. } rewrite <- e in H1. lia.
        -- destruct (Nat.eqb_spec pos (par i)).
           ++ destruct (Nat.eqb_spec pos p); [lia|]. destruct (Nat.eqb_spec pos i); [lia|]. apply Bi; auto.
           ++ apply Ai; auto.
    + intros c Hc Pc Hp. unfold h1 in Hc. rewrite !upd_length in Hc. rewrite !E.
      assert (Pp := par_lt p Hp). assert (Ap := A p). unfold ord in Ap. rewrite !E0 in Ap.
      assert (Ac := A c Hc). rewrite !E0 in Ac. rewrite Pc in Ac.
      destruct (Nat.eqb_spec pos p); [lia|]. destruct (Nat.eqb_spec pos (par p)); [lia|].
      destruct (Nat.eqb_spec p (par p)); [lia|].
      assert (fst (at_ h (par p)) <= fst (at_ h p)) by (apply Ap; lia).
      assert (Hc' := par_lt c (proj1 Hc)).
      destruct (Nat.eqb_spec p c); [lia|]. destruct (Nat.eqb_spec pos c); [lia|].
      assert (fst (at_ h p) <= fst (at_ h c)) by (apply Ac; lia). lia.
  - exists h', pos'. split; [exact R|split; [auto|split; [auto|]]].
    rewrite Q. set (g := upd h pos newitem).
    assert (Hs : upd h1 p newitem = upd (upd g pos (at_ g p)) p (at_ g pos)).
    { apply list_ext; [unfold h1, g; rewrite !upd_length; auto|]. intros i _. rewrite E.
      rewrite at_upd by (unfold g; rewrite !upd_length; lia). rewrite at_upd by (unfold g; rewrite !upd_length; lia).
      unfold g. rewrite !E0, Nat.eqb_refl. destruct (Nat.eqb_spec pos p); [lia|].
      destruct (Nat.eqb p i); auto. destruct (Nat.eqb pos i); auto. }
    rewrite Hs. apply swap_perm; unfold g; rewrite upd_length; lia.
Qed.

Lemma siftdown_ok h pos : sd_inv h pos ->
  exists h', siftdown h 0 pos = Ok h' /\ heap_ok h' /\ Permutation h' h.
Proof.
  intros I. assert (L : (pos < length h)%nat) by apply I. unfold siftdown. rewrite hget_ok by auto. cbn [bind].
  destruct (siftdown_loop_ok (at_ h pos) (S pos) h pos) as (h' & p' & R & L' & K & P); [lia|rewrite upd_same; auto|].
  rewrite R. cbn [bind fst snd]. rewrite hput_ok by auto. eexists. split; [auto|]. split; [auto|].
  rewrite P, upd_same by auto. auto.
Qed.

(** A heap apart from the pairs involving [pos], whose children are not below its
    parent. *)
Definition su_inv (h : list entry) (pos : nat) : Prop :=
  (pos < length h)%nat
  /\ (forall i, (0 < i < length h)%nat -> i <> pos -> par i <> pos -> ord h i)
  /\ (forall c, (0 < c < length h)%nat -> par c = pos -> (0 < pos)%nat -> fst (at_ h (par pos)) <= fst (at_ h c)).

Lemma siftup_loop_ok newitem : forall fuel h pos,
  (length h <= fuel + pos)%nat -> (0 < fuel)%nat -> su_inv (upd h pos newitem) pos ->
  exists h' pos', siftup_loop fuel h (length h) pos = Ok (h', pos') /\ length h' = length h
    /\ sd_inv (upd h' pos' newitem) pos' /\ Permutation (upd h' pos' newitem) (upd h pos newitem).
Proof.
  induction fuel as [|fuel IH]; intros h pos F F0 I; [lia|]. cbn [siftup_loop].
  destruct I as (L & A & B). rewrite upd_length in *. cbv zeta.
  assert (E0 : forall i, at_ (upd h pos newitem) i = if Nat.eqb pos i then newitem else at_ h i).
  { intros i. rewrite at_upd by lia. auto. }
  destruct (Nat.ltb_spec (2 * pos + 1) (length h)) as [Lc|Lc].
  2:{ exists h, pos. split; [auto|split; [auto|split; [|auto]]]. split; [rewrite upd_length; auto|]. split.
      - intros i Hi Ni. rewrite upd_length in Hi. apply A; auto. intros Pi. apply par_child in Pi; lia.
      - intros c Hc Pc. rewrite upd_length in Hc. apply par_child in Pc; lia. }
  assert (C : exists c, (if Nat.ltb (2 * pos + 1 + 1) (length h)
       then l <- hget h (2 * pos + 1) ;; r <- hget h (2 * pos + 1 + 1) ;;
            if negb (address l <? address r) then Ok (2 * pos + 1 + 1)%nat else Ok (2 * pos + 1)%nat
       else Ok (2 * pos + 1)%nat) = Ok c /\ (c < length h)%nat /\ (0 < c)%nat /\ par c = pos
       /\ forall i, (0 < i < length h)%nat -> par i = pos -> fst (at_ h c) <= fst (at_ h i)).
  { destruct (Nat.ltb_spec (2 * pos + 1 + 1) (length h)).
    - rewrite !hget_ok by lia. cbn [bind]. unfold address.
      destruct (Z.ltb_spec (fst (at_ h (2 * pos + 1))) (fst (at_ h (2 * pos + 1 + 1)))); cbn [negb].
      + eexists. split; [auto|]. split; [lia|split; [lia|split; [apply par_child; lia|]]].
        intros i Hi Pi. apply par_child in Pi; [|lia]. destruct Pi as [-> | ->]; [lia|].
        replace (2 * pos + 2)%nat with (2 * pos + 1 + 1)%nat by lia. lia.
      + eexists. split; [auto|]. split; [lia|split; [lia|split; [apply par_child; lia|]]].
        intros i Hi Pi. apply par_child in Pi; [|lia]. destruct Pi as [-> | ->]; [lia|].
        replace (2 * pos + 2)%nat with (2 * pos + 1 + 1)%nat by lia. lia.
    - eexists. split; [auto|]. split; [lia|split; [lia|split; [apply par_child; lia|]]].
      intros i Hi Pi. apply par_child in Pi; [|lia]. destruct Pi as [-> | ->]; lia. }
  destruct C as (c & -> & C1 & C2 & C3 & C4). cbn [bind]. assert (Pc := par_lt c C2). rewrite C3 in Pc.
  rewrite hget_ok by lia. cbn [bind]. rewrite hput_ok by lia. cbn [bind].
  set (h1 := upd h pos (at_ h c)).
  assert (Ll : length h1 = length h) by (unfold h1; apply upd_length).
  assert (E : forall i, at_ (upd h1 c newitem) i = if Nat.eqb c i then newitem else if Nat.eqb pos i then at_ h c else at_ h i).
  { intros i. unfold h1. rewrite at_upd by (rewrite upd_length; lia). rewrite at_upd by lia. auto. }
  unfold ord in *.
  destruct (IH h1 c) as (h' & pos' & R & L' & K & Q).
  - lia.
  - lia.
  - split; [rewrite upd_length; lia|]. unfold ord. split.
    + intros i Hi Ni Np. rewrite upd_length, Ll in Hi. rewrite !E.
      assert (Ai := A i Hi). rewrite !E0 in Ai.
      destruct (Nat.eqb_spec c i); [congruence|]. destruct (Nat.eqb_spec c (par i)); [congruence|].
      destruct (Nat.eqb_spec pos i).
      * subst i. assert (Bc := B c). rewrite !E0 in Bc. destruct (Nat.eqb_spec pos (par pos)).
        -- assert (X := par_lt pos (proj1 Hi)). lia.
        -- destruct (Nat.eqb_spec pos c); [lia|]. apply Bc; auto; lia.
      * destruct (Nat.eqb_spec pos (par i)); [apply C4; auto|]. apply Ai; auto.
    + intros k Hk Pk _. rewrite upd_length, Ll in Hk. rewrite !E. rewrite C3.
      assert (X := par_lt k (proj1 Hk)).
      destruct (Nat.eqb_spec c pos); [lia|]. rewrite Nat.eqb_refl.
      destruct (Nat.eqb_spec c k); [lia|]. destruct (Nat.eqb_spec pos k); [lia|].
      assert (Ak := A k Hk). rewrite !E0, Pk in Ak. destruct (Nat.eqb_spec pos c); [lia|].
      destruct (Nat.eqb_spec pos k); [lia|]. apply Ak; lia.
  - rewrite Ll in R. exists h', pos'. split; [exact R|split; [lia|split; [auto|]]].
    rewrite Q. set (g := upd h pos newitem).
    assert (Hs : upd h1 c newitem = upd (upd g pos (at_ g c)) c (at_ g pos)).
    { apply list_ext; [unfold h1, g; rewrite !upd_length; auto|]. intros i _. rewrite E.
      rewrite at_upd by (unfold g; rewrite !upd_length; lia). rewrite at_upd by (unfold g; rewrite !upd_length; lia).
      unfold g. rewrite !E0, Nat.eqb_refl. destruct (Nat.eqb_spec pos c); [lia|].
      destruct (Nat.eqb c i); auto. destruct (Nat.eqb pos i); auto. }
    rewrite Hs. apply swap_perm; unfold g; rewrite upd_length; lia.
Qed.

Lemma siftup_ok h : (0 < length h)%nat -> (forall i, (0 < i < length h)%nat -> par i <> 0%nat -> ord h i) ->
  exists h', siftup h 0 = Ok h' /\ heap_ok h' /\ Permutation h' h.
Proof.
  intros L A. unfold siftup. rewrite hget_ok by auto. cbn [bind].
  destruct (siftup_loop_ok (at_ h 0) (S (length h)) h 0) as (h' & p' & R & L' & K & P); [lia|lia| |].
  - rewrite upd_same by auto. split; [auto|]. split; [|intros; lia]. intros i Hi _ Np. auto.
  - rewrite R. cbn [bind fst snd].
    assert (Lp : (p' < length (upd h' p' (at_ h 0)))%nat) by apply K. rewrite upd_length in Lp.
    rewrite hput_ok by auto. cbn [bind]. destruct (siftdown_ok _ _ K) as (h2 & R2 & K2 & P2).
    exists h2. split; [auto|split; [auto|]]. rewrite P2, P, upd_same by auto. auto.
Qed.

Lemma push_ok h e : heap_ok h -> exists h', heappush h e = Ok h' /\ heap_ok h' /\ Permutation h' (e :: h).
Proof.
  intros K. unfold heappush. rewrite app_length. cbn [length]. replace (length h + 1 - 1)%nat with (length h) by lia.
  destruct (siftdown_ok (h ++ [e]) (length h)) as (h' & R & K' & P).
  - split; [rewrite app_length; cbn; lia|]. split.
    + intros i Hi Ni. rewrite app_length in Hi. cbn [length] in Hi. unfold ord, at_.
      assert (X := par_lt i (proj1 Hi)). rewrite !app_nth1 by lia. apply K. lia.
    + intros c Hc Pc. rewrite app_length in Hc. cbn [length] in Hc. assert (X := par_lt c (proj1 Hc)). lia.
  - exists h'. split; [auto|split; [auto|]]. rewrite P. symmetry. apply Permutation_cons_append.
Qed.

Lemma heap_min h i : heap_ok h -> (i < length h)%nat -> fst (at_ h 0) <= fst (at_ h i).
Proof.
  intros K. induction i as [i IH] using lt_wf_ind. intros L. destruct i as [|i]; [lia|].
  assert (X := par_lt (S i)). specialize (X ltac:(lia)).
  assert (fst (at_ h 0) <= fst (at_ h (par (S i)))) by (apply IH; lia).
  assert (ord h (S i)) by (apply K; lia). unfold ord in *. lia.
Qed.

Lemma pop_ok h : heap_ok h -> h <> [] -> exists e h', heappop h = Ok (e, h') /\ heap_ok h'
  /\ Permutation h (e :: h') /\ forall x, In x h -> fst e <= fst x.
Proof.
  intros K N. unfold heappop.
  assert (M : forall x, In x h -> fst (at_ h 0) <= fst x).
  { intros x I. apply (In_nth _ _ d0) in I. destruct I as (i & L & <-). apply heap_min; auto. }
  destruct (rev h) as [|z rest] eqn:E.
  { destruct h; [congruence|]. cbn in E. destruct (rev h); discriminate. }
  assert (H : h = rev rest ++ [z]). { rewrite <- (rev_involutive h), E. reflexivity. }
  destruct (rev rest) as [|a r].
  - subst h. exists z, []. split; [auto|split; [intros i Hi; cbn in Hi; lia|split; [auto|]]]. exact M.
  - cbn [app] in H. cbn [hput bind].
    destruct (siftup_ok (z :: r)) as (h' & R & K' & P).
    + cbn. lia.
    + intros i Hi Np. assert (O : ord h i) by (apply K; subst h; cbn in *; rewrite app_length; cbn; lia).
      subst h. unfold ord, at_ in *. cbn [length] in Hi. assert (X := par_lt i (proj1 Hi)).
      destruct i as [|i]; [lia|]. destruct (par (S i)) as [|p] eqn:Ep; [congruence|]. cbn [nth] in *.
      rewrite !app_nth1 in O by lia. auto.
    + rewrite R. cbn [bind]. exists a, h'. split; [auto|split; [auto|split]].
      * subst h. apply perm_skip. rewrite P. symmetry. apply Permutation_cons_append.
      * subst h. exact M.
Qed.

Lemma hrun_ok ops : forall h bag, heap_ok h -> Permutation h bag -> enough (length bag) ops ->
  exists h' out bag', hrun h ops = Ok (h', out) /\ heap_ok h' /\ Permutation h' bag' /\ bag_run bag ops bag' out.
Proof.
  induction ops as [|[e|] t IH]; intros h bag K P N; cbn [hrun].
  - exists h, [], bag. split; [auto|split; [auto|split; [auto|constructor]]].
  - destruct (push_ok h e K) as (h1 & -> & K1 & P1). cbn [bind].
    destruct (IH h1 (e :: bag)) as (h' & out & bag' & R & K' & P' & B); auto.
    { rewrite P1. apply perm_skip; auto. }
    exists h', out, bag'. split; [auto|split; [auto|split; [auto|constructor; auto]]].
  - destruct (pop_ok h) as (e & h1 & R1 & K1 & P1 & M); auto.
    { intros ->. apply Permutation_nil in P. subst. cbn in N. auto. }
    rewrite R1. cbn [bind fst snd].
    destruct (IH h1 h1) as (h' & out & bag' & R & K' & P' & B); auto.
    { cbn in N. destruct (length bag) eqn:Lb; [contradiction|]. apply Permutation_length in P, P1. cbn in *.
      replace (length h1) with n by lia. auto. }
    rewrite R. cbn [bind fst snd]. exists h', (e :: out), bag'. split; [auto|split; [auto|split; [auto|]]].
    apply BPop with (rest := h1); auto.
    + rewrite <- P. auto.
    + intros x I. apply M. eapply Permutation_in; [symmetry; exact P|auto].
Qed.

(** Draining a bag answers its entries in order. *)
Lemma bag_drain n : forall bag bag' out, length bag = n -> bag_run bag (repeat Pop n) bag' out ->
  bag' = [] /\ Permutation out bag /\ StronglySorted (fun a b => fst a <= fst b) out.
Proof.
  induction n as [|n IH]; intros bag bag' out L B; cbn [repeat] in B; inversion B; subst.
  - destruct bag'; [|discriminate]. split; [auto|split; [auto|constructor]].
  - match goal with H : Permutation bag _ |- _ => rename H into P end.
    assert (Lr : length rest = n) by (apply Permutation_length in P; cbn in P; unfold entry in *; lia).
    match goal with H : bag_run rest _ _ _ |- _ => destruct (IH _ _ _ Lr H) as (-> & P' & S') end.
    split; [auto|split].
    + rewrite P, P'. auto.
    + constructor; auto. apply Forall_forall. intros x I.
      match goal with H : forall x, In x bag -> _ |- _ => apply H end.
      eapply Permutation_in; [symmetry; exact P|]. right. eapply Permutation_in; eauto.
Qed.
Lemma bag_pushes l : forall bag t bag' out, bag_run bag (map Push l ++ t) bag' out -> bag_run (rev l ++ bag) t bag' out.
Proof.
  induction l as [|e l IH]; intros bag t bag' out B; cbn in *; auto.
  inversion B; subst. apply IH in H4. cbn. rewrite <- app_assoc. auto.
Qed.
Lemma enough_pushes l : forall n t, enough (length l + n) t -> enough n (map Push l ++ t).
Proof. induction l as [|e l IH]; intros n t H; cbn in *; auto. apply IH. replace (length l + S n)%nat with (S (length l + n)) by lia. auto. Qed.
Lemma enough_pops n : forall m, (n <= m)%nat -> enough m (repeat Pop n).
Proof. induction n; intros [|m] H; cbn; auto; try lia. apply IHn; lia. Qed.
