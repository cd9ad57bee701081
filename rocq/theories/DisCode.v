(** The listings of compiled methods. *)
From Coq Require Import ZArith Bool String Ascii List Lia.
From Verif Require Import Base LexModel LexSpec ParseModel BcModel BcInterp BcSpec BcTab BcCode BcHeight
  NtxModel NtxSpec NtxProofs DisModel DisSpec DisText DisProofs.
Import ListNotations.
Open Scope nat_scope.
Open Scope list_scope.

(** * Decoding *)
Lemma decodes_app i a c1 : decodes i a c1 -> forall b c2, decodes (i + length a) b c2 -> decodes i (a ++ b) (c1 ++ c2).
Proof.
  induction 1 as [i|i b ops bs code Hb Hl Hd IH]; intros b' c2 H2.
  - rewrite Nat.add_0_r in H2. exact H2.
  - cbn [app]. rewrite <- app_assoc. constructor; auto. apply IH. cbn [length] in H2. rewrite app_length in H2.
    rewrite <- Hl. replace (i + (1 + length ops) + length bs) with (i + S (length ops + length bs)) by lia. exact H2.
Qed.
Lemma decodes_one i b ops : b <> B_invalid -> 1 + length ops = blen b -> decodes i (num b :: ops) [(i, b, ops)].
Proof.
  intros Hb Hl. rewrite <- (app_nil_r ops) at 1. constructor; auto. constructor.
Qed.
(** Where a jump goes. *)
Definition jump_target (x : ins) (p : nat) : Prop :=
  match x with
  | (a, b, [u; v]) => match jump_form b with
                      | Some (JBack, _) => u + 256 * v <= a /\ p = a - (u + 256 * v)
                      | Some _ => p = a + (u + 256 * v)
                      | None => False
                      end
  | _ => False
  end.
(** What is known of an instruction the compiler writes. *)
Definition well_made (ls : list literal) (T : nat -> Prop) (x : ins) : Prop :=
  match x with
  | (a, b, ops) =>
      match jump_form b with
      | Some (_, wide) => exists u v, ops = [u; v] /\ (wide = false -> v = 0) /\ exists p, jump_target x p /\ T p
      | None =>
          match b, ops with
          | B_push_constant, [i] => exists l v, nth_error ls i = Some l /\ lit_value l = Some v
          | (B_push_global | B_send_1 | B_send_2 | B_send_3 | B_send_n | B_super_send), [i] =>
              exists t, nth_error ls i = Some (LS t)
          | (B_push_block | B_push_block_no_ctx), [i] => exists m, nth_error ls i = Some (LM m)
          | _, _ => True
          end /\
          ~ In b [B_q_super_send_1; B_q_super_send_2; B_q_super_send_3; B_q_super_send_n;
                  B_push_frame; B_pop_frame; B_push_inner; B_pop_inner;
                  B_push_frame_0; B_push_frame_1; B_push_frame_2; B_pop_frame_0; B_pop_frame_1; B_pop_frame_2;
                  B_push_inner_0; B_push_inner_1; B_push_inner_2; B_pop_inner_0; B_pop_inner_1; B_pop_inner_2]
      end
  end.
Definition closed (ls : list literal) (i : nat) (bs : list nat) : Prop :=
  exists code, decodes i bs code /\
    Forall (well_made ls (fun p => In p (map address code) \/ p = i + length bs)) code.

Lemma well_made_weaken ls (T T' : nat -> Prop) x : (forall p, T p -> T' p) -> well_made ls T x -> well_made ls T' x.
Proof.
  destruct x as [[a b] ops]. unfold well_made. destruct (jump_form b) as [[k w]|]; auto.
  intros HT (u & v & E & Hw & p & Hp & H). exists u, v. split; auto. split; auto. exists p. auto.
Qed.
Lemma decodes_start i bs code : decodes i bs code -> In i (map address code) \/ length bs = 0.
Proof. destruct 1; cbn; auto. Qed.

(** Pieces of code, one after the other; [T] has the starts of all of them and the end. *)
Definition piece (ls : list literal) (T : nat -> Prop) (i : nat) (bs : list nat) (code : list ins) : Prop :=
  decodes i bs code /\ Forall (well_made ls T) code.
Lemma piece_app ls T i a b c1 c2 : piece ls T i a c1 -> piece ls T (i + length a) b c2 -> piece ls T i (a ++ b) (c1 ++ c2).
Proof. intros [D1 F1] [D2 F2]. split; [apply decodes_app; auto|apply Forall_app; auto]. Qed.
Lemma piece_weaken ls (T T' : nat -> Prop) i a c : (forall p, T p -> T' p) -> piece ls T i a c -> piece ls T' i a c.
Proof. intros H [D F]. split; auto. eapply Forall_impl; [|exact F]. intros x. apply well_made_weaken. exact H. Qed.

Lemma enc_op_piece fields C ls A o b bo : enc_op fields C ls A o b bo -> forall i T, piece ls T i bo [(i, b, tl bo)].
Proof.
  intros H i T.
  assert (P : bo = num b :: tl bo /\ 1 + length (tl bo) = blen b /\ b <> B_invalid /\ well_made ls T (i, b, tl bo)).
  { assert (SB : forall n, jump_form (send_bc n) = None /\ blen (send_bc n) = 2 /\
        In (send_bc n) [B_send_1; B_send_2; B_send_3; B_send_n]) by (intros [|[|[|[|n]]]]; cbn; auto 10).
    destruct H; cbn [tl length]; try (split; [reflexivity|split; [reflexivity|split; [discriminate|]]]; unfold well_made; cbn [jump_form];
      split; [eauto; exact I|cbn [In]; intuition discriminate]).
    destruct (SB (nargs t)) as (S1 & S2 & S3). split; [reflexivity|]. split; [rewrite S2; reflexivity|].
    cbn [In] in S3. unfold well_made. rewrite S1.
    split; [intros E; rewrite E in S3; intuition discriminate|].
    repeat destruct S3 as [S3|S3]; try contradiction; rewrite <- S3; (split; [eauto|cbn [In]; intuition discriminate]). }
  destruct P as (P1 & P2 & P3 & P4). split.
  - rewrite P1 at 1. apply decodes_one; auto.
  - repeat constructor. exact P4.
Qed.
Lemma wide_jump b k : jump_form b = Some (k, false) ->
  blen b = 3 /\ exists b', num b + NUM_SINGLE = num b' /\ jump_form b' = Some (k, true) /\ blen b' = 3.
Proof.
  destruct b; try discriminate; intros E; injection E as <-; (split; [reflexivity|]);
  match goal with |- exists b', num ?b + NUM_SINGLE = _ /\ _ =>
    let r := eval vm_compute in (nth_error all_bc (num b + NUM_SINGLE)) in
    match r with Some ?b' => exists b' end end; repeat split.
Qed.
Lemma jump_piece ls (T : nat -> Prop) b k off j i p : jump_form b = Some (k, false) -> enc_jump b off j ->
  (match k with JBack => off <= i /\ p = i - off | _ => p = i + off end) -> T p ->
  length j = 3 /\ exists x, piece ls T i j [x] /\ address x = i.
Proof.
  intros Hb Hj Hp HT. destruct (wide_jump _ _ Hb) as (L1 & b' & Hn & Hf & L2).
  assert (NI : b <> B_invalid) by (intros ->; discriminate). assert (NI' : b' <> B_invalid) by (intros ->; discriminate).
  destruct Hj as [->|(x & y & -> & ->)]; (split; [reflexivity|]).
  - exists (i, b, [off; 0]). split; [split|reflexivity].
    + apply decodes_one; auto.
    + constructor; [|constructor]. unfold well_made. rewrite Hb. exists off, 0. split; auto. split; auto.
      exists p. split; auto. unfold jump_target. rewrite Hb. replace (off + 256 * 0) with off by lia. destruct k; auto.
  - rewrite Hn. exists (i, b', [x; y]). split; [split|reflexivity].
    + apply decodes_one; auto.
    + constructor; [|constructor]. unfold well_made. rewrite Hf. exists x, y. split; auto. split; [discriminate|].
      exists p. split; auto. unfold jump_target. rewrite Hf. replace (x + 256 * y) with (x + y * 256) by lia. destruct k; auto.
Qed.
Lemma jump_bc_form k t : exists j, jump_form (jump_bc k t) = Some (j, false) /\ j <> JBack.
Proof. destruct k, t; eexists; (split; [reflexivity|discriminate]). Qed.

Lemma closed_pieces ls i bs code (T : nat -> Prop) : piece ls T i bs code ->
  (forall p, T p -> In p (map address code) \/ p = i + length bs) -> closed ls i bs.
Proof.
  intros [D F] H. exists code. split; auto. eapply Forall_impl; [|exact F]. intros x. apply well_made_weaken. exact H.
Qed.
Ltac len := cbn [length] in *; rewrite ?app_length in *; lia.


Definition ends (i : nat) (bs : list nat) (code : list ins) (p : nat) : Prop := In p (map address code) \/ p = i + length bs.
Lemma ends_start i bs code : decodes i bs code -> ends i bs code i.
Proof. intros H. destruct (decodes_start _ _ _ H); [left; auto|right; lia]. Qed.
Lemma piece_of ls i bs code : decodes i bs code -> Forall (well_made ls (ends i bs code)) code -> piece ls (ends i bs code) i bs code.
Proof. split; auto. Qed.
Lemma in_mid (x : nat) (a b : list ins) : In x (map address a) \/ In x (map address b) -> In x (map address (a ++ b)).
Proof. rewrite map_app, in_app_iff. auto. Qed.

Lemma enc_closed fields C ls A i c bs L P : enc fields C ls A i c bs L P -> closed ls i bs.
Proof.
  induction 1 as [C ls A i|C ls A i o b bo c bs L P Ho _ (cc & Dc & Fc)
    |C ls A i k b bb Lb Pb j c bs L P _ (cb & Db & Fb) Hj _ (cc & Dc & Fc)
    |C ls A i k b1 b2 bb1 bb2 L1 P1 L2 P2 j1 j2 c bs L P _ (c1 & D1 & F1) Hj1 _ (c2 & D2 & F2) Hj2 Hne _ (cc & Dc & Fc)
    |C ls A i k t b bt bb Lt Pt Lb Pb j1 j2 c bs L P _ (ct & Dt & Ft) Hj1 _ (cb & Db & Fb) Hj2 _ (cc & Dc & Fc)].
  - exists []. split; constructor.
  - set (T := ends (i + length bo) bs cc).
    apply (closed_pieces ls i (bo ++ bs) ([(i, b, tl bo)] ++ cc) T).
    + apply piece_app; [eapply enc_op_piece; eauto|apply piece_of; auto].
    + intros p [Hp|Hp]; [left; apply in_mid; auto|right; len].
  - destruct (jump_bc_form k false) as (q & Hq & Hnb).
    set (T := fun p => ends (i + 3) bb cb p \/ ends (i + 3 + length bb) bs cc p).
    pose proof (ends_start _ _ _ Dc) as Sc.
    destruct (jump_piece ls T _ _ _ j i (i + 3 + length bb) Hq Hj) as (Lj & x & Px & Ax).
    { destruct q; try lia. congruence. }
    { right. exact Sc. }
    apply (closed_pieces ls i (j ++ bb ++ bs) ([x] ++ cb ++ cc) T).
    + apply piece_app; auto. rewrite Lj. apply piece_app.
      * apply (piece_weaken _ (ends (i + 3) bb cb)); [left; auto|apply piece_of; auto].
      * apply (piece_weaken _ (ends (i + 3 + length bb) bs cc)); [right; auto|apply piece_of; auto].
    + assert (Y : forall p, ends (i + 3 + length bb) bs cc p -> In p (map address ([x] ++ cb ++ cc)) \/ p = i + length (j ++ bb ++ bs)).
      { intros p [Hp|Hp]; [left; apply in_mid; right; apply in_mid; auto|right; len]. }
      intros p [[Hp|Hp]|Hp]; auto.
      * left. apply in_mid. right. apply in_mid. auto.
      * subst p. auto.
  - destruct (jump_bc_form k true) as (q & Hq & Hnb).
    set (T := fun p => ends (i + 3) bb1 c1 p \/ ends (i + 3 + length bb1 + 3) bb2 c2 p \/ ends (i + 3 + length bb1 + 3 + length bb2) bs cc p \/ p = i + 3 + length bb1).
    pose proof (ends_start _ _ _ Dc) as Sc. pose proof (ends_start _ _ _ D2) as S2.
    destruct (jump_piece ls T _ _ _ j1 i (i + 3 + length bb1 + 3) Hq Hj1) as (Lj & x & Px & Ax).
    { destruct q; try lia. congruence. }
    { right. left. exact S2. }
    destruct (jump_piece ls T B_jump _ _ j2 (i + 3 + length bb1) (i + 3 + length bb1 + 3 + length bb2) (eq_refl : jump_form B_jump = Some (JAlways, false)) Hj2) as (Lj2 & y & Py & Ay); [lia| |].
    { right. right. left. exact Sc. }
    apply (closed_pieces ls i (j1 ++ bb1 ++ j2 ++ bb2 ++ bs) ([x] ++ c1 ++ [y] ++ c2 ++ cc) T).
    + apply piece_app; auto. rewrite Lj. apply piece_app.
      { apply (piece_weaken _ (ends (i + 3) bb1 c1)); [left; auto|apply piece_of; auto]. }
      apply piece_app; auto. rewrite Lj2. apply piece_app.
      { apply (piece_weaken _ (ends (i + 3 + length bb1 + 3) bb2 c2)); [right; left; auto|apply piece_of; auto]. }
      apply (piece_weaken _ (ends (i + 3 + length bb1 + 3 + length bb2) bs cc)); [right; right; left; auto|apply piece_of; auto].
    + assert (Y : forall p, ends (i + 3 + length bb1 + 3 + length bb2) bs cc p ->
        In p (map address ([x] ++ c1 ++ [y] ++ c2 ++ cc)) \/ p = i + length (j1 ++ bb1 ++ j2 ++ bb2 ++ bs)).
      { intros p [Hp|Hp]; [left; do 4 (apply in_mid; right); auto|right; len]. }
      assert (Z : In (i + 3 + length bb1) (map address ([x] ++ c1 ++ [y] ++ c2 ++ cc))).
      { do 2 (apply in_mid; right). apply in_mid. left. cbn [map In]. auto. }
      intros p [[Hp|Hp]|[[Hp|Hp]|[Hp|Hp]]]; auto.
      * left. apply in_mid. right. apply in_mid. auto.
      * subst p. left. exact Z.
      * left. do 3 (apply in_mid; right). apply in_mid. auto.
      * subst p. auto.
      * subst p. left. exact Z.
  - destruct (jump_bc_form k true) as (q & Hq & Hnb).
    set (T := fun p => ends i bt ct p \/ ends (i + length bt + 3) bb cb p \/ ends (i + length bt + 3 + length bb + 3) bs cc p
      \/ p = i + length bt \/ p = i + length bt + 3 + length bb).
    pose proof (ends_start _ _ _ Dc) as Sc. pose proof (ends_start _ _ _ Dt) as St.
    destruct (jump_piece ls T _ _ _ j1 (i + length bt) (i + length bt + 3 + length bb + 3) Hq Hj1) as (Lj & x & Px & Ax).
    { destruct q; try lia. congruence. }
    { right. right. left. exact Sc. }
    destruct (jump_piece ls T B_jump_backward _ _ j2 (i + length bt + 3 + length bb) i (eq_refl : jump_form B_jump_backward = Some (JBack, false)) Hj2) as (Lj2 & y & Py & Ay); [lia| |].
    { left. exact St. }
    apply (closed_pieces ls i (bt ++ j1 ++ bb ++ j2 ++ bs) (ct ++ [x] ++ cb ++ [y] ++ cc) T).
    + apply piece_app; [apply (piece_weaken _ (ends i bt ct)); [left; auto|apply piece_of; auto]|].
      apply piece_app; auto. rewrite Lj.
      apply piece_app; [apply (piece_weaken _ (ends (i + length bt + 3) bb cb)); [right; left; auto|apply piece_of; auto]|].
      apply piece_app; auto. rewrite Lj2.
      apply (piece_weaken _ (ends (i + length bt + 3 + length bb + 3) bs cc)); [right; right; left; auto|apply piece_of; auto].
    + assert (Y : forall p, ends (i + length bt + 3 + length bb + 3) bs cc p ->
        In p (map address (ct ++ [x] ++ cb ++ [y] ++ cc)) \/ p = i + length (bt ++ j1 ++ bb ++ j2 ++ bs)).
      { intros p [Hp|Hp]; [left; do 4 (apply in_mid; right); auto|right; len]. }
      assert (Zx : In (i + length bt) (map address (ct ++ [x] ++ cb ++ [y] ++ cc))).
      { apply in_mid. right. apply in_mid. left. cbn [map In]. auto. }
      assert (Zy : In (i + length bt + 3 + length bb) (map address (ct ++ [x] ++ cb ++ [y] ++ cc))).
      { do 3 (apply in_mid; right). apply in_mid. left. cbn [map In]. auto. }
      intros p [[Hp|Hp]|[[Hp|Hp]|[Hp|[Hp|Hp]]]]; auto; try (subst p; left; assumption).
      * left. apply in_mid. auto.
      * left. do 2 (apply in_mid; right). apply in_mid. auto.
Qed.

(** * Execution goes from instruction to instruction *)
Lemma step_goes {S X} (μ : machine S X) cap chain lits bs pc b st s pc' st' s' :
  nth_error bs pc = Some (num b) ->
  step μ cap chain lits bs pc st s = Done (pc', st') s' ->
  match jump_form b with
  | None => pc' = pc + blen b
  | Some (k, wide) => exists u v, nth_error bs (pc + 1) = Some u /\ nth_error bs (pc + 2) = Some v /\
      let off := if wide then u + 256 * v else u in
      pc' = pc + blen b \/ match k with JBack => off <= pc /\ pc' = pc - off | _ => pc' = pc + off end
  end.
Proof.
  intros Hb H. unfold step in H. rewrite Hb in H. cbn [need] in H. rewrite of_num_num in H. cbn [need] in H.
  destruct (jump_form b) as [[k wide]|] eqn:Ej.
  - destruct (nth_error bs (pc + 1)) as [u|] eqn:E1; cbn [need] in H; [|discriminate].
    destruct (nth_error bs (pc + 2)) as [v|] eqn:E2; cbn [need] in H; [|discriminate].
    exists u, v. split; auto. split; auto. rewrite (Nat.mul_comm 256 v). cbv zeta in *. set (off := if wide then _ else _) in *.
    destruct k as [|c|c|]; unfold pop in H.
    + injection H as <- <- <-. auto.
    + destruct st as [|v0 r]; [discriminate|]. destruct (takes c v0); injection H as <- <- <-; auto.
    + destruct st as [|v0 r]; [discriminate|]. destruct (takes c v0); injection H as <- <- <-; auto.
    + destruct (off <=? pc) eqn:E; [|discriminate]. apply Nat.leb_le in E. injection H as <- <- <-. auto.
  - assert (PU : forall v p st s, @push S X cap v p st s = Done (pc', st') s' -> pc' = p) by
      (intros v p st0 s0; unfold push; destruct (_ <? _); [|discriminate]; intros E; injection E; auto).
    assert (DS : forall f n t p st s, @do_send S X cap f n t p st s = Done (pc', st') s' -> pc' = p).
    { intros f n t p st0 s0. unfold do_send, popn. destruct (n <=? length st0); [|discriminate].
      destruct (f _ _ _); cbn [bind]; try discriminate. apply PU. }
    destruct b; try discriminate Ej; try discriminate H; cbv zeta in H;
      repeat match type of H with
             | need ?o _ = _ => destruct o; cbn [need] in H; [|discriminate]
             | pop ?st _ = _ => destruct st; cbn [pop] in H; [discriminate|]
             | bind ?o _ = _ => destruct o; cbn [bind] in H; try discriminate
             | push _ _ _ _ _ = _ => apply PU in H
             | do_send _ _ _ _ _ _ _ = _ => apply DS in H
             | Done _ _ = Done _ _ => injection H as H _ _
             | Retn _ _ = _ => discriminate
             end; try exact H; try (symmetry; exact H).
Qed.

Lemma decodes_at a bs code : decodes a bs code -> forall x, In x code ->
  exists pre post, bs = pre ++ (num (snd (fst x)) :: snd x) ++ post /\ a + length pre = address x /\
    snd (fst x) <> B_invalid /\ 1 + length (snd x) = blen (snd (fst x)) /\
    (In (address x + blen (snd (fst x))) (map address code) \/ address x + blen (snd (fst x)) = a + length bs).
Proof.
  induction 1 as [a|a b ops bs code Hb Hl Hd IH]; intros x Hx; [destruct Hx|].
  destruct Hx as [<-|Hx].
  - exists [], bs. cbn [fst snd address app length]. repeat split; auto.
    destruct (decodes_start _ _ _ Hd) as [H|H]; [left; right; exact H|right; rewrite app_length; lia].
  - destruct (IH x Hx) as (pre & post & -> & E & Hi & Hl' & Hn). exists (num b :: ops ++ pre), post. repeat split; auto.
    + cbn [app]. rewrite <- !app_assoc. reflexivity.
    + cbn [length]. rewrite app_length. lia.
    + destruct Hn as [Hn|Hn]; [left; right; exact Hn|right]. rewrite Hn. cbn [length]. rewrite (app_length ops). lia.
Qed.

(** Every address an execution comes by has its instruction, until the end is reached. *)
Lemma visits_addresses ls code {S X} (μ : machine S X) outer m s0 pc st s :
  me_lits m = ls -> decodes 0 (me_bytes m) code -> Forall (well_made ls (ends 0 (me_bytes m) code)) code ->
  visits μ outer m s0 pc st s -> ends 0 (me_bytes m) code pc.
Proof.
  intros El Hd HF Hv. induction Hv as [|pc st s pc' st' s' Hv IH Hs].
  - apply ends_start. exact Hd.
  - destruct IH as [IH|IH].
    + apply in_map_iff in IH. destruct IH as (x & Ex & Hx). destruct (decodes_at _ _ _ Hd x Hx) as (pre & post & Eb & Ea & Hi & Hl & Hn).
      destruct x as [[a b] ops]. cbn [fst snd address] in *. subst pc. cbn [Nat.add] in Ea. subst a.
      assert (N0 : nth_error (me_bytes m) (length pre) = Some (num b)) by (rewrite Eb, nth_error_app2, Nat.sub_diag by lia; reflexivity).
      pose proof (step_goes _ _ _ _ _ _ _ _ _ _ _ _ N0 Hs) as G.
      rewrite Forall_forall in HF. specialize (HF _ Hx). unfold well_made in HF.
      destruct (jump_form b) as [[k wide]|] eqn:Ej; [|subst pc'; exact Hn].
      destruct HF as (u & v & -> & Hw & p & Hp & HT). destruct G as (u' & v' & E1 & E2 & G).
      assert (u' = u /\ v' = v) as [-> ->].
      { rewrite Eb, nth_error_app2 in E1, E2 by lia. replace (length pre + 1 - length pre) with 1 in E1 by lia.
        replace (length pre + 2 - length pre) with 2 in E2 by lia. cbn in E1, E2. split; congruence. }
      destruct G as [->|G]; [exact Hn|].
      assert (EO : (if wide then u + 256 * v else u) = u + 256 * v) by (destruct wide; auto; rewrite (Hw eq_refl); lia).
      rewrite EO in G. unfold jump_target in Hp. rewrite Ej in Hp.
      assert (pc' = p) by (destruct k; first [congruence | destruct G, Hp; congruence]). subst. exact HT.
    + exfalso. subst pc. cbn [Nat.add] in Hs. unfold step in Hs.
      rewrite (proj2 (nth_error_None (me_bytes m) (length (me_bytes m)))) in Hs by lia. discriminate.
Qed.
Lemma visits_run {S X} (μ : machine S X) outer m s0 pc st s : visits μ outer m s0 pc st s ->
  forall k, exists n, run_method μ outer m (n + k) s0 =
    run μ (Z.to_nat (me_max m)) (map snd (me_locals m) :: outer) (me_lits m) (me_bytes m) k pc st s.
Proof.
  induction 1 as [|pc st s pc' st' s' Hv IH Hs]; intros k.
  - exists 0. reflexivity.
  - destruct (IH (Datatypes.S k)) as (n & Hn). exists (Datatypes.S n). replace (Datatypes.S n + k) with (n + Datatypes.S k) by lia. rewrite Hn.
    cbn [run]. rewrite Hs. reflexivity.
Qed.
(** The methods inside *)
Lemma pushed_skip ops bs : pushed (length ops) (ops ++ bs) = pushed 0 bs.
Proof. induction ops; [reflexivity|]. exact IHops. Qed.
Lemma pushed_in a bs code : decodes a bs code -> forall x i, In (x, B_push_block, [i]) code -> In i (pushed 0 bs).
Proof.
  induction 1 as [a|a b ops bs code Hb Hl Hd IH]; intros x i Hx; [destruct Hx|].
  cbn [pushed]. rewrite of_num_num. apply in_app_iff. rewrite <- Hl. cbn [Nat.add Nat.sub]. rewrite Nat.sub_0_r, pushed_skip.
  destruct Hx as [E|Hx]; [|right; eauto]. injection E as _ -> ->. left. cbn [app]. left. reflexivity.
Qed.
Lemma inside_block m outer i m' : In i (pushed 0 (me_bytes m)) -> nth_error (me_lits m) i = Some (LM m') ->
  forall x, In x ((map snd (me_locals m) :: outer, m') :: inside m' (map snd (me_locals m) :: outer)) -> In x (inside m outer).
Proof.
  intros Hi Hn x Hx. destruct m as [label bytes lits locals na loops mx tr]. cbn [me_bytes me_lits me_locals inside] in *.
  apply in_flat_map. exists i. split; auto.
  set (f := fun l => match l with LM m => fun o => (o, m) :: inside m o | _ => fun _ => [] end).
  assert (E : nth i (map f lits) (fun _ => []) = f (LM m')).
  { apply nth_error_nth. rewrite nth_error_map, Hn. reflexivity. }
  rewrite E. exact Hx.
Qed.
Lemma inside_inv m outer x : In x (inside m outer) -> exists i m', In i (pushed 0 (me_bytes m)) /\
  nth_error (me_lits m) i = Some (LM m') /\
  In x ((map snd (me_locals m) :: outer, m') :: inside m' (map snd (me_locals m) :: outer)).
Proof.
  destruct m as [label bytes lits locals na loops mx tr]. cbn [me_bytes me_lits me_locals inside].
  intros H. apply in_flat_map in H. destruct H as (i & Hi & H).
  set (f := fun l => match l with LM m => fun o => (o, m) :: inside m o | _ => fun _ => [] end) in H.
  destruct (nth_error lits i) as [l|] eqn:E.
  - assert (En : nth i (map f lits) (fun _ => []) = f l) by (apply nth_error_nth; rewrite nth_error_map, E; reflexivity).
    rewrite En in H. destruct l; cbn [f] in H; try contradiction. exists i, m. auto.
  - rewrite nth_overflow in H by (rewrite map_length; apply nth_error_None; exact E). destruct H.
Qed.
Lemma inside_trans m : forall outer o m' x, In (o, m') (inside m outer) -> In x (inside m' o) -> In x (inside m outer).
Proof.
  apply (meth_rec (fun m => forall outer o m' x, In (o, m') (inside m outer) -> In x (inside m' o) -> In x (inside m outer))).
  clear m. intros m IH outer o m' x H Hx. apply inside_inv in H. destruct H as (i & b & Hi & Hn & H).
  apply (inside_block m outer i b Hi Hn). right. destruct H as [E|H]; [injection E as <- <-; exact Hx|].
  eapply IH; eauto.
Qed.
Lemma shown_inside m m' : shown m m' -> exists outer, In (outer, m') (([], m) :: inside m []).
Proof.
  induction 1 as [|m' code a i m'' Hs (outer & IH) Hd Hi Hn]; [exists []; left; reflexivity|].
  exists (map snd (me_locals m') :: outer). right.
  assert (H : In (map snd (me_locals m') :: outer, m'') (inside m' outer)).
  { apply (inside_block m' outer i m''); [eapply pushed_in; eauto|exact Hn|left; reflexivity]. }
  destruct IH as [E|IH]; [injection E as <- <-; exact H|]. eapply inside_trans; eauto.
Qed.
Lemma shown_trans m m' m'' : shown m m' -> shown m' m'' -> shown m m''.
Proof. intros H1 H2. induction H2; auto. eapply shown_block; eauto. Qed.

Lemma coded_closed ce outer m : coded ce outer m -> closed (me_lits m) 0 (me_bytes m).
Proof. intros (C & A & c & P & h & p & _ & He & _). eapply enc_closed; eauto. Qed.

(** A listing exists. *)
Definition names_fields (ob : objects) (m : meth) : Prop :=
  forall fs code a b i c, o_fields ob = Some fs -> decodes 0 (me_bytes m) code -> In (a, b, [i; c]) code ->
    In b [B_push_field; B_pop_field; B_inc_field; B_inc_field_push] -> i < length fs.
Lemma listing_exists ob m : (forall v, exists s, o_str ob v = Ok s) ->
  (forall m', shown m m' -> me_triv m' = None /\ closed (me_lits m') 0 (me_bytes m') /\ names_fields ob m') ->
  forall ind, exists t, listed ob m ind t.
Proof.
  intros Hstr. revert m.
  apply (meth_rec (fun m => (forall m', shown m m' -> me_triv m' = None /\ closed (me_lits m') 0 (me_bytes m') /\ names_fields ob m') ->
    forall ind, exists t, listed ob m ind t)).
  intros m IH Hs ind. destruct (Hs m (shown_itself m)) as (Ht & (code & Hd & HF) & Hf).
  assert (ES : forall x, In x code -> exists t, entry ob m ind x t).
  { intros [[a b] ops] Hx. rewrite Forall_forall in HF. pose proof (HF _ Hx) as Wx.
    destruct (decodes_at _ _ _ Hd _ Hx) as (_ & _ & _ & _ & Hi & Hl & _). cbn [fst snd] in Hi, Hl.
    pose proof (proj2 (column_str a _) eq_refl) as Ca.
    assert (D : forall n, decimal n (nat_str n)) by (intros; apply decimal_str; reflexivity).
    assert (K : (exists i, b = B_push_block /\ ops = [i]) \/ b <> B_push_block /\ exists to, operands ob m a b ops to).
    { assert (LS_ : forall l, exists s, lit_str ob l = Ok s) by (intros [v|t|m0]; cbn [lit_str]; eauto).
      unfold well_made in Wx. destruct (jump_form b) as [[k w]|] eqn:Ej.
      - right. split; [intros ->; discriminate|]. destruct Wx as (u & v & -> & _ & p & Hp & _).
        destruct k; eexists; try (eapply about_jump; eauto; discriminate).
        eapply about_back; eauto. apply written_str. reflexivity.
      - destruct Wx as [Wx Wn].
        assert (FK : In b [B_push_field; B_pop_field; B_inc_field; B_inc_field_push] -> forall i c, ops = [i; c] ->
          exists to, operands ob m a b ops to).
        { intros Hb i c ->. destruct (o_fields ob) as [fs|] eqn:Ef.
          - destruct (nth_error fs i) as [f|] eqn:En; [eexists; eapply about_field; eauto|].
            apply nth_error_None in En. pose proof (Hf fs code a b i c Ef Hd Hx Hb). lia.
          - eexists. eapply about_no_class; eauto. }
        assert (SK : In b [B_send_1; B_send_2; B_send_3; B_send_n; B_super_send] -> forall i, ops = [i] ->
          (exists t, nth_error (me_lits m) i = Some (LS t)) -> exists to, operands ob m a b ops to).
        { intros Hb i -> (t & Et). destruct (LS_ (LS t)) as (s & Es). eexists. eapply about_send; eauto.
          cbn [In] in *. tauto. }
        destruct b; cbn [blen] in Hl; try discriminate Ej; try congruence;
          try (exfalso; apply Wn; cbn [In]; tauto);
          (destruct ops as [|i [|c [|d ops]]]; cbn [length] in Hl; try lia);
          try (right; split; [discriminate|]; eexists; apply about_none; reflexivity);
          try (right; split; [discriminate|]; apply (FK ltac:(cbn [In]; tauto) _ _ eq_refl));
          try (right; split; [discriminate|]; apply (SK ltac:(cbn [In]; tauto) _ eq_refl Wx));
          try (right; split; [discriminate|]; eexists; eapply about_local; eauto; cbn [In]; tauto);
          try (right; split; [discriminate|]; eexists; eapply about_argument; eauto; cbn [In]; tauto).
        + left. eauto.
        + right. split; [discriminate|]. eexists. apply about_block_no_ctx.
        + right. split; [discriminate|]. destruct Wx as (l & v & En & _). destruct (LS_ l) as (s & Es).
          eexists. eapply about_constant; eauto.
        + right. split; [discriminate|]. destruct Wx as (t & En). destruct (LS_ (LS t)) as (s & Es).
          eexists. eapply about_global; eauto.
        + right. split; [discriminate|]. eexists. apply about_return. eauto. }
    destruct K as [(i & -> & ->)|(Hb & to & Ho)].
    - unfold well_made in Wx. cbn [jump_form] in Wx. destruct Wx as [(m' & Hm) _].
      destruct (IH i m' Hm) with (ind := ind ++ tab) as (t & Hlt).
      { intros m'' H''. apply Hs. eapply shown_trans; [|exact H'']. eapply shown_block; eauto. constructor. }
      eexists. eapply a_block; eauto.
    - eexists. eapply an_entry; eauto. }
  assert (EE : forall code', (forall x, In x code' -> In x code) -> exists ts, entries ob m ind code' ts).
  { induction code' as [|x code' IHc]; intros Hin; [exists []; constructor|].
    destruct (ES x) as (t & Et); [apply Hin; left; reflexivity|].
    destruct IHc as (ts & Ets); [intros y Hy; apply Hin; right; exact Hy|]. exists (t ++ ts). constructor; auto. }
  destruct (EE code) as (ts & Ets); auto.
  eexists. eapply a_method; eauto; try (apply decimal_str; reflexivity). apply written_str. reflexivity.
Qed.

(** Decoding by computation, for examples *)
Fixpoint decode (fuel a : nat) (bs : list nat) : option (list ins) :=
  match fuel, bs with
  | _, [] => Some []
  | S f, n :: r =>
      match of_num n with
      | Some b => if (blen b - 1 <=? length r) && negb (num b =? num B_invalid) then
                    option_map (cons (a, b, firstn (blen b - 1) r)) (decode f (a + blen b) (skipn (blen b - 1) r))
                  else None
      | None => None
      end
  | O, _ => None
  end.
Lemma of_num_inv n b : of_num n = Some b -> n = num b.
Proof.
  intros H. do 100 (destruct n as [|n]; [cbn in H; first [discriminate H | injection H as <-; reflexivity]|]).
  cbn in H. discriminate.
Qed.
Lemma decode_ok fuel : forall a bs code, decode fuel a bs = Some code -> decodes a bs code.
Proof.
  induction fuel as [|fuel IH]; intros a [|n r] code H; cbn [decode] in H; try discriminate; try (injection H as <-; constructor).
  destruct (of_num n) as [b|] eqn:E; [|discriminate]. destruct (_ && _) eqn:C; [|discriminate].
  apply andb_true_iff in C. destruct C as [C1 C2]. apply Nat.leb_le in C1. apply negb_true_iff, Nat.eqb_neq in C2.
  destruct (decode fuel _ _) as [code'|] eqn:D; [|discriminate]. injection H as <-. apply of_num_inv in E. subst n.
  assert (Hb : b <> B_invalid) by (intros ->; congruence). pose proof (blen_pos _ Hb).
  rewrite <- (firstn_skipn (blen b - 1) r) at 1. constructor; auto.
  rewrite firstn_length_le by exact C1. lia.
Qed.
