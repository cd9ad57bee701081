(** The priority queue used for patching jumps: property C32. *)
From Coq Require Import ZArith Bool List Lia Permutation Sorted.
From Verif Require Import Base HeapModel HeapSpec HeapProofs.
Import ListNotations.
Open Scope Z_scope.
Open Scope list_scope.

(** Any history that never removes from an empty queue runs to its end, answers what a
    bag of entries answers, and leaves the entries of the bag. *)
Theorem C32_queue_is_bag : forall ops, enough 0 ops ->
  exists h out bag, hrun [] ops = Ok (h, out) /\ bag_run [] ops bag out /\ Permutation h bag.
Proof.
  intros ops N. destruct (hrun_ok ops [] []) as (h & out & bag & R & _ & P & B); auto.
  { intros i Hi. cbn in Hi. lia. }
  exists h, out, bag. auto.
Qed.
Print Assumptions C32_queue_is_bag.

(** Nothing is lost, invented or answered twice. *)
Theorem C32_exactly_once : forall ops h out, enough 0 ops -> hrun [] ops = Ok (h, out) ->
  Permutation (out ++ h) (pushed ops).
Proof.
  intros ops h out N R. destruct (C32_queue_is_bag ops N) as (h' & out' & bag & R' & B & P).
  rewrite R in R'. injection R' as <- <-. rewrite P.
  assert (G : forall l ops b o, bag_run l ops b o -> Permutation (o ++ b) (l ++ pushed ops)).
  { clear. intros l ops b o B. induction B; cbn [pushed app].
    - rewrite app_nil_r. auto.
    - rewrite IHB. cbn [app]. apply Permutation_middle.
    - rewrite IHB, H. auto. }
  apply G in B. auto.
Qed.
Print Assumptions C32_exactly_once.

(** Insert any entries, then remove them all: they come out by address. *)
Theorem C32_sorted_drain : forall l,
  exists h out, hrun [] (map Push l ++ repeat Pop (length l)) = Ok (h, out)
    /\ h = [] /\ Permutation out l /\ StronglySorted (fun a b => fst a <= fst b) out.
Proof.
  intros l. destruct (C32_queue_is_bag (map Push l ++ repeat Pop (length l))) as (h & out & bag & R & B & P).
  { apply enough_pushes. apply enough_pops. lia. }
  apply bag_pushes in B. rewrite app_nil_r in B.
  destruct (bag_drain (length l) (rev l) bag out) as (-> & P' & S'); auto. { apply rev_length. }
  exists h, out. split; [auto|split; [|split; [|auto]]].
  - apply Permutation_nil. symmetry. auto.
  - rewrite P'. symmetry. apply Permutation_rev.
Qed.
Print Assumptions C32_sorted_drain.

(** Removing from an empty queue is an IndexError, at the point where it happens. *)
Theorem C32_empty_pop : forall ops, (exists pre post, ops = pre ++ Pop :: post /\ enough 0 pre
    /\ length (filter (fun o => match o with Pop => true | _ => false end) pre) = length (pushed pre)) ->
  hrun [] ops = Err IndexError.
Proof.
  intros ops (pre & post & -> & N & L).
  destruct (C32_queue_is_bag pre N) as (h & out & bag & R & B & P).
  assert (C := C32_exactly_once pre h out N R).
  assert (Lo : forall l b ops o, bag_run l ops b o ->
     length o = length (filter (fun o => match o with Pop => true | _ => false end) ops)).
  { clear. intros l b ops o B. induction B; cbn; auto. }
  apply Lo in B. apply Permutation_length in C. rewrite app_length in C.
  assert (h = []) by (destruct h; auto; cbn in C; lia). subst h.
  assert (G : forall l s h1 o, hrun l s = Ok (h1, o) -> hrun l (s ++ Pop :: post) =
      (r' <- hrun h1 (Pop :: post) ;; Ok (fst r', o ++ snd r'))).
  { clear. intros l s. revert l. induction s as [|[e|] s IH]; intros l h1 o R.
    - cbn in R. injection R as <- <-. rewrite app_nil_l. destruct (hrun l (Pop :: post)) as [[? ?]|]; auto.
    - cbn [hrun app] in *. destruct (heappush l e) as [l'|]; [|discriminate]. cbn [bind] in *. apply IH; auto.
    - cbn [hrun app] in *. destruct (heappop l) as [[x l']|]; [|discriminate]. cbn [bind fst snd] in *.
      destruct (hrun l' s) as [[h2 o2]|] eqn:E; [|discriminate]. cbn [bind fst snd] in R. injection R as <- <-.
      rewrite (IH _ _ _ E). destruct (heappop h2) as [[y h3]|]; cbn [bind fst snd]; auto.
      destruct (hrun h3 post) as [[? ?]|]; auto. }
  rewrite (G _ _ _ _ R). reflexivity.
Qed.
Print Assumptions C32_empty_pop.

Example C32_nonvacuous :
  let ops := [Push (5, 1%nat); Push (3, 2%nat); Pop; Push (9, 3%nat); Push (1, 4%nat); Push (5, 5%nat); Pop; Pop; Pop] in
  enough 0 ops
  /\ hrun [] ops = Ok ([(9, 3%nat)], [(3, 2%nat); (1, 4%nat); (5, 1%nat); (5, 5%nat)]).
Proof. split; [vm_compute; exact I|vm_compute; reflexivity]. Qed.
