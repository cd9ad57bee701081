(** Operand stacks of compiled code: one height per address, never too high, never empty when
    something is popped. *)
From Coq Require Import ZArith Bool String Ascii List Lia.
From Verif Require Import Base LexModel ParseModel BcModel BcInterp BcSpec BcTab BcCode BcSim BcEval BcMono BcAdapt BcScope BcEmit BcInl BcRep BcGen BcExpr BcMsg BcBlk BcMeth BcRun BcNest.
Import ListNotations.
Open Scope nat_scope.
Open Scope list_scope.

Section Height.
Variable fields : list text.
Variable cap : nat.
Variable C : cx.
Variable lits : list literal.
Variable bs : list nat.

(** Heights for addresses from [i] to [j]: entered at [i] with [h], left at [j] with [h']. *)
Record hm (i j h h' p : nat) (H : list (nat * nat)) : Prop := {
  hm_range : forall pc g, In (pc, g) H -> i <= pc < j /\ g <= p;
  hm_fun : forall pc g g', In (pc, g) H -> In (pc, g') H -> g = g';
  hm_entry : In (i, h) H \/ (i = j /\ h = h');
  hm_next : forall S X (μ : machine S X) pc st s pc' st' s', In (pc, length st) H ->
    step μ cap (map fst C) lits bs pc st s = Done (pc', st') s' ->
    In (pc', length st') H \/ (pc' = j /\ length st' = h') }.
Lemma hm_nil i h p : hm i i h h p [].
Proof. split; simpl; auto; intros; contradiction. Qed.
Lemma hm_weak i j h h' p q H : hm i j h h' p H -> p <= q -> hm i j h h' q H.
Proof. intros [R F E N] Hpq. split; auto. intros pc g Hi. apply R in Hi. lia. Qed.
Lemma hm_seq i j l h h1 h' p H1 H2 : i <= j <= l -> hm i j h h1 p H1 -> hm j l h1 h' p H2 ->
  hm i l h h' p (H1 ++ H2).
Proof.
  intros Hl [R1 F1 E1 N1] [R2 F2 E2 N2]. split.
  - intros pc g Hi. apply in_app_or in Hi. destruct Hi as [Hi|Hi]; [apply R1 in Hi|apply R2 in Hi]; lia.
  - intros pc g g' Ha Hb. apply in_app_or in Ha, Hb. destruct Ha as [Ha|Ha], Hb as [Hb|Hb]; eauto.
    + apply R1 in Ha. apply R2 in Hb. lia.
    + apply R2 in Ha. apply R1 in Hb. lia.
  - destruct E1 as [E1|[-> ->]].
    + left. apply in_or_app. auto.
    + destruct E2 as [E2|E2]; auto. left. apply in_or_app. auto.
  - intros S X μ pc st s pc' st' s' Hi Hs. apply in_app_or in Hi. destruct Hi as [Hi|Hi].
    + destruct (N1 _ _ _ _ _ _ _ _ _ Hi Hs) as [A|[-> ->]]; [left; apply in_or_app; auto|].
      destruct E2 as [E2|[-> ->]]; [left; apply in_or_app; auto|auto].
    + destruct (N2 _ _ _ _ _ _ _ _ _ Hi Hs) as [A|A]; auto. left. apply in_or_app. auto.
Qed.
Lemma hm_one i j h h' p : i < j -> h <= p ->
  (forall S X (μ : machine S X) st s pc' st' s', length st = h ->
     step μ cap (map fst C) lits bs i st s = Done (pc', st') s' -> pc' = j /\ length st' = h') ->
  hm i j h h' p [(i, h)].
Proof.
  intros Hij Hp Hs. split.
  - intros pc g [E|[]]. inversion E. lia.
  - intros pc g g' [E|[]] [E'|[]]. congruence.
  - left. simpl. auto.
  - intros S X μ pc st s pc' st' s' [E|[]] Ht. inversion E; subst. right. eapply Hs; eauto.
Qed.

Lemma heights A i c bb L P : enc fields C lits A i c bb L P ->
  forall pre post h h' p, bs = pre ++ bb ++ post -> length pre = i ->
  typ c h = Some (h', p) -> p <= cap ->
  exists H, hm i (i + length bb) h h' p H.
Proof.
  intros H.
  remember C as C0 eqn:HC0. remember lits as l0 eqn:Hl0.
  induction H as [C0 l0 A i
    |C0 l0 A i o b bo c bs' L P Ho Hc IHc
    |C0 l0 A i k b bb Lb Pb j c bs' L P Hb IHb Hj Hc IHc
    |C0 l0 A i k b1 b2 bb1 bb2 L1 P1 L2 P2 j1 j2 c bs' L P H1 IH1 Hj1 H2 IH2 Hj2 Hne Hc IHc
    |C0 l0 A i k t b bt bb Lt Pt Lb Pb j1 j2 c bs' L P Ht IHt Hj1 Hb IHb Hj2 Hc IHc]; subst C0 l0;
    intros pre post h h' p Hbs Hi Hty Hp; cbn [typ] in Hty.
  - inversion Hty; subst. rewrite Nat.add_0_r. exists []. apply hm_nil.
  - apply hseq_some in Hty. destruct Hty as (h1 & p1 & p2 & T1 & T2 & ->).
    rewrite typ_item_eq in T1. destruct (op_ht o h) as [h1'|] eqn:Eo; [|discriminate].
    inversion T1; subst h1' p1. clear T1.
    destruct (IHc eq_refl eq_refl (pre ++ bo) post h1 h' p2) as (Hc' & M).
    { rewrite Hbs, <- !app_assoc. reflexivity. } { rewrite app_length. lia. } { auto. } { lia. }
    assert (Lb : 1 <= length bo) by (inversion Ho; subst; cbn [length]; lia).
    rewrite app_length, Nat.add_assoc. exists ([(i, h)] ++ Hc').
    apply (hm_seq i (i + length bo) _ h h1); [lia| |eapply hm_weak; [exact M|lia]].
    apply hm_one; [lia|lia|]. intros S X μ st s pc' st' s' Hl Hs. rewrite <- Hi in Hs.
    rewrite (step_op μ fields cap C lits bs A o b bo pre (bs' ++ post) st s h1 Ho) in Hs;
      [|rewrite Hbs, <- app_assoc; reflexivity|rewrite Hl; exact Eo|lia|lia].
    destruct (exec_op μ o st s) as [st1 s1| | | |] eqn:Ex; try discriminate. cbn [bind] in Hs. inversion Hs; subst.
    split; auto. exact (op_ht_exec μ _ _ _ Eo 0 _ _ _ _ eq_refl Ex).
  - apply hseq_some in Hty. destruct Hty as (h1 & p1 & p2 & T1 & T2 & ->).
    pose proof (enc_jump_len _ _ _ Hj) as Lj.
    rewrite typ_item_eq in T1. destruct (1 <=? h) eqn:E1; [|discriminate]. apply Nat.leb_le in E1.
    apply heq_some in T1. destruct T1 as (q & Tb & E). inversion E; subst h1 p1. clear E.
    destruct (IHb eq_refl eq_refl (pre ++ j) (bs' ++ post) (h - 1) h q) as (Hb' & [R1 F1 N1 X1]).
    { rewrite Hbs, <- !app_assoc. reflexivity. } { rewrite app_length. lia. } { auto. } { lia. }
    destruct (IHc eq_refl eq_refl (pre ++ j ++ bb) post h h' p2) as (Hc' & M2).
    { rewrite Hbs, <- !app_assoc. reflexivity. } { rewrite !app_length. lia. } { auto. } { lia. }
    rewrite !app_length, Lj. replace (i + (3 + (length bb + length bs'))) with (i + 3 + length bb + length bs') by lia.
    exists (((i, h) :: Hb') ++ Hc').
    apply (hm_seq i (i + 3 + length bb) _ h h); [lia| |eapply hm_weak; [exact M2|lia]].
    split.
    + intros pc g [E|Hin]; [inversion E; lia|]. apply R1 in Hin. lia.
    + intros pc g g' [E|Ha] [E'|Hb0]; eauto; try congruence.
      * inversion E; subst. apply R1 in Hb0. lia.
      * inversion E'; subst. apply R1 in Ha. lia.
    + left. simpl. auto.
    + intros S X μ pc st s pc' st' s' [E|Hin] Hs.
      * inversion E; subst pc h. rewrite <- Hi in Hs.
        rewrite (step_jump μ cap C lits bs (jump_bc k false) (JTop k) (3 + length bb) j pre (bb ++ bs' ++ post)) in Hs;
          [|exact Hj|rewrite Hbs, <- !app_assoc; reflexivity|apply jump_form_jump].
        unfold jump_sem in Hs. destruct st as [|v r]; [discriminate|]. cbn [pop] in Hs. cbn [length] in *.
        destruct (takes k v); inversion Hs; subst; cbn [length].
        { right. split; [lia|reflexivity]. }
        { rewrite Nat.sub_succ, Nat.sub_0_r in N1. destruct N1 as [N1|[_ N1]]; [|lia]. left. right. exact N1. }
      * destruct (X1 _ _ _ _ _ _ _ _ _ Hin Hs); auto. left. right. auto.
  - apply hseq_some in Hty. destruct Hty as (h1 & p1 & p2 & T1 & T2 & ->).
    pose proof (enc_jump_len _ _ _ Hj1) as Lj1. pose proof (enc_jump_len _ _ _ Hj2) as Lj2.
    rewrite typ_item_eq in T1. destruct (1 <=? h) eqn:E1; [|discriminate]. apply Nat.leb_le in E1.
    apply heq_some in T1. destruct T1 as (q & Tb & E).
    apply heq_some in E. destruct E as (q2 & Tb2 & E). inversion E; subst h1 p1. clear E.
    destruct (IH1 eq_refl eq_refl (pre ++ j1) (j2 ++ bb2 ++ bs' ++ post) (h - 1) h q) as (Ha' & [R1 F1 N1 X1]).
    { rewrite Hbs, <- !app_assoc. reflexivity. } { rewrite app_length. lia. } { auto. } { lia. }
    destruct (IH2 eq_refl eq_refl (pre ++ j1 ++ bb1 ++ j2) (bs' ++ post) (h - 1) h q2) as (Hb' & [R2 F2 N2 X2]).
    { rewrite Hbs, <- !app_assoc. reflexivity. } { rewrite !app_length. lia. } { auto. } { lia. }
    destruct (IHc eq_refl eq_refl (pre ++ j1 ++ bb1 ++ j2 ++ bb2) post h h' p2) as (Hc' & M3).
    { rewrite Hbs, <- !app_assoc. reflexivity. } { rewrite !app_length. lia. } { auto. } { lia. }
    rewrite !app_length, Lj1, Lj2.
    replace (i + (3 + (length bb1 + (3 + (length bb2 + length bs'))))) with (i + 3 + length bb1 + 3 + length bb2 + length bs') by lia.
    set (jm := i + 3 + length bb1) in *.
    exists (((i, h) :: Ha' ++ (jm, h) :: Hb') ++ Hc').
    apply (hm_seq i (jm + 3 + length bb2) _ h h); [lia| |eapply hm_weak; [exact M3|lia]].
    split.
    + intros pc g [E|Hin]; [inversion E; lia|]. apply in_app_or in Hin. destruct Hin as [Hin|[E|Hin]].
      * apply R1 in Hin. lia.
      * inversion E. lia.
      * apply R2 in Hin. lia.
    + assert (Q : forall pc g, In (pc, g) ((i, h) :: Ha' ++ (jm, h) :: Hb') ->
        (pc = i /\ g = h) \/ (In (pc, g) Ha' /\ i + 3 <= pc < jm) \/ (pc = jm /\ g = h) \/ (In (pc, g) Hb' /\ jm + 3 <= pc)).
      { intros pc g [E|Hin]; [inversion E; auto|]. apply in_app_or in Hin. destruct Hin as [Hin|[E|Hin]].
        - right. left. split; auto. apply R1 in Hin. lia.
        - inversion E. auto.
        - right. right. right. split; auto. apply R2 in Hin. lia. }
      intros pc g g' Ha Hb. apply Q in Ha, Hb.
      destruct Ha as [[? ?]|[[? ?]|[[? ?]|[? ?]]]], Hb as [[? ?]|[[? ?]|[[? ?]|[? ?]]]]; try lia; eauto.
    + left. simpl. auto.
    + assert (W : forall pc g, In (pc, g) Hb' -> In (pc, g) ((i, h) :: Ha' ++ (jm, h) :: Hb')).
      { intros pc g Hin. right. apply in_or_app. right. right. auto. }
      intros S X μ pc st s pc' st' s' [E|Hin] Hs; [|apply in_app_or in Hin; destruct Hin as [Hin|[E|Hin]]].
      * inversion E; subst pc h. rewrite <- Hi in Hs.
        rewrite (step_jump μ cap C lits bs (jump_bc k true) (JPop k) (3 + length bb1 + 3) j1 pre (bb1 ++ j2 ++ bb2 ++ bs' ++ post)) in Hs;
          [|exact Hj1|rewrite Hbs, <- !app_assoc; reflexivity|apply jump_form_jump].
        unfold jump_sem in Hs. destruct st as [|v r]; [discriminate|]. cbn [pop] in Hs. cbn [length] in *.
        rewrite Nat.sub_succ, Nat.sub_0_r in N1, N2.
        destruct (takes k v); inversion Hs; subst.
        { left. destruct N2 as [N2|[_ N2]]; [|lia]. apply W.
          replace (length pre + Datatypes.S (Datatypes.S (Datatypes.S (length bb1 + 3)))) with (jm + 3) by (unfold jm; lia). exact N2. }
        { left. destruct N1 as [N1|[_ N1]]; [|lia]. right. apply in_or_app. auto. }
      * destruct (X1 _ _ _ _ _ _ _ _ _ Hin Hs) as [Y|[-> Y]].
        { left. right. apply in_or_app. auto. }
        { left. right. apply in_or_app. right. left. rewrite Y. reflexivity. }
      * inversion E; subst pc h. replace jm with (length (pre ++ j1 ++ bb1)) in Hs by (rewrite !app_length; unfold jm; lia).
        rewrite (step_jump μ cap C lits bs B_jump JAlways (3 + length bb2) j2 (pre ++ j1 ++ bb1) (bb2 ++ bs' ++ post)) in Hs;
          [|exact Hj2|rewrite Hbs, <- !app_assoc; reflexivity|reflexivity].
        unfold jump_sem in Hs. inversion Hs; subst. right. split; [rewrite !app_length; unfold jm; lia|auto].
      * destruct (X2 _ _ _ _ _ _ _ _ _ Hin Hs); auto.
  - apply hseq_some in Hty. destruct Hty as (h1 & p1 & p2 & T1 & T2 & ->).
    pose proof (enc_jump_len _ _ _ Hj1) as Lj1. pose proof (enc_jump_len _ _ _ Hj2) as Lj2.
    rewrite typ_item_eq in T1.
    apply heq_some in T1. destruct T1 as (q & Tb & E).
    apply heq_some in E. destruct E as (q2 & Tb2 & E). inversion E; subst h1 p1. clear E.
    pose proof (typ_peak _ _ _ _ Tb) as Pk1. pose proof (typ_peak _ _ _ _ Tb2) as Pk2.
    destruct (IHt eq_refl eq_refl pre (j1 ++ bb ++ j2 ++ bs' ++ post) h (S h) q) as (Ha' & [R1 F1 N1 X1]).
    { rewrite Hbs, <- !app_assoc. reflexivity. } { lia. } { auto. } { lia. }
    destruct (IHb eq_refl eq_refl (pre ++ bt ++ j1) (j2 ++ bs' ++ post) h h q2) as (Hb' & [R2 F2 N2 X2]).
    { rewrite Hbs, <- !app_assoc. reflexivity. } { rewrite !app_length. lia. } { auto. } { lia. }
    destruct (IHc eq_refl eq_refl (pre ++ bt ++ j1 ++ bb ++ j2) post h h' p2) as (Hc' & M3).
    { rewrite Hbs, <- !app_assoc. reflexivity. } { rewrite !app_length. lia. } { auto. } { lia. }
    rewrite !app_length, Lj1, Lj2.
    replace (i + (length bt + (3 + (length bb + (3 + length bs'))))) with (i + length bt + 3 + length bb + 3 + length bs') by lia.
    set (i1 := i + length bt) in *. set (ib := i1 + 3 + length bb) in *.
    exists ((Ha' ++ (i1, S h) :: Hb' ++ [(ib, h)]) ++ Hc').
    apply (hm_seq i (ib + 3) _ h h); [lia| |eapply hm_weak; [exact M3|lia]].
    assert (Q : forall pc g, In (pc, g) (Ha' ++ (i1, S h) :: Hb' ++ [(ib, h)]) ->
      (In (pc, g) Ha' /\ i <= pc < i1) \/ (pc = i1 /\ g = S h) \/ (In (pc, g) Hb' /\ i1 + 3 <= pc < ib) \/ (pc = ib /\ g = h)).
    { intros pc g Hin. apply in_app_or in Hin. destruct Hin as [Hin|[E|Hin]].
      - left. split; auto. apply R1 in Hin. lia.
      - inversion E. auto.
      - apply in_app_or in Hin. destruct Hin as [Hin|[E|[]]].
        + right. right. left. split; auto. apply R2 in Hin. lia.
        + inversion E. auto. }
    split.
    + intros pc g Hin. apply Q in Hin. destruct Hin as [[Hin ?]|[[? ?]|[[Hin ?]|[? ?]]]]; try lia.
      * apply R1 in Hin. lia.
      * apply R2 in Hin. lia.
    + intros pc g g' Ha Hb0. apply Q in Ha, Hb0.
      destruct Ha as [[? ?]|[[? ?]|[[? ?]|[? ?]]]], Hb0 as [[? ?]|[[? ?]|[[? ?]|[? ?]]]]; try lia; eauto.
    + left. destruct N1 as [N1|[_ N1]]; [|lia]. apply in_or_app. auto.
    + assert (W0 : In (i, h) (Ha' ++ (i1, S h) :: Hb' ++ [(ib, h)])).
      { destruct N1 as [N1|[_ N1]]; [|lia]. apply in_or_app. auto. }
      intros S' X μ pc st s pc' st' s' Hin Hs. apply in_app_or in Hin. destruct Hin as [Hin|[E|Hin]].
      * destruct (X1 _ _ _ _ _ _ _ _ _ Hin Hs) as [Y|[-> Y]].
        { left. apply in_or_app. auto. }
        { left. apply in_or_app. right. left. rewrite Y. reflexivity. }
      * injection E as E El. subst pc. replace i1 with (length (pre ++ bt)) in Hs by (rewrite !app_length; unfold i1; lia).
        rewrite (step_jump μ cap C lits bs (jump_bc k true) (JPop k) (3 + length bb + 3) j1 (pre ++ bt) (bb ++ j2 ++ bs' ++ post)) in Hs;
          [|exact Hj1|rewrite Hbs, <- !app_assoc; reflexivity|apply jump_form_jump].
        unfold jump_sem in Hs. destruct st as [|v r]; [discriminate|]. cbn [pop] in Hs. cbn [length] in El. injection El as El.
        destruct (takes k v); inversion Hs; subst.
        { right. split; [rewrite !app_length; unfold ib, i1; lia|reflexivity]. }
        { left. apply in_or_app. right. right. apply in_or_app.
          replace (length (pre ++ bt) + 3) with (i1 + 3) by (rewrite !app_length; unfold i1; lia).
          destruct N2 as [N2|[N2 _]]; auto. right. left. rewrite N2. reflexivity. }
      * apply in_app_or in Hin. destruct Hin as [Hin|[E|[]]].
        { destruct (X2 _ _ _ _ _ _ _ _ _ Hin Hs) as [Y|[-> Y]].
          - left. apply in_or_app. right. right. apply in_or_app. auto.
          - left. apply in_or_app. right. right. apply in_or_app. right. left. rewrite Y. reflexivity. }
        { injection E as E El. subst pc. replace ib with (length (pre ++ bt ++ j1 ++ bb)) in Hs by (rewrite !app_length; unfold ib, i1; lia).
          rewrite (step_jump μ cap C lits bs B_jump_backward JBack (length bt + 3 + length bb) j2 (pre ++ bt ++ j1 ++ bb) (bs' ++ post)) in Hs;
            [|exact Hj2|rewrite Hbs, <- !app_assoc; reflexivity|reflexivity].
          unfold jump_sem in Hs. destruct (_ <=? _); [|discriminate]. inversion Hs; subst. left.
          replace (length (pre ++ bt ++ j1 ++ bb) - (length bt + 3 + length bb)) with (length pre) by (rewrite !app_length; lia).
          exact W0. }
Qed.
End Height.

(** * Code that is well typed does not go wrong *)
Section Safe.
Context {S X : Type}.
Variable μ : machine S X.
Hypothesis W : well_behaved μ.
Lemma bind_safe {A B} (m : out S X A) (f : A -> S -> out S X B) :
  m <> Stuck -> (forall a s, m = Done a s -> f a s <> Stuck) -> bind m f <> Stuck.
Proof. intros Hm Hf. destruct m; cbn [bind]; auto; try discriminate. Qed.
Definition safe (f : nat -> list value -> S -> out S X (list value)) (h : nat) : Prop :=
  forall n st s, length st = h -> f n st s <> Stuck.
Lemma op_safe o h h' : op_ht o h = Some h' -> safe (fun _ st s => exec_op μ o st s) h.
Proof.
  intros H n st s Hl. destruct W.
  destruct o; unfold op_ht in H; cbn [exec_op];
    try (destruct (1 <=? h) eqn:E1; [|discriminate]; apply Nat.leb_le in E1;
         destruct st as [|v0 st]; [cbn in Hl; lia|]; cbn [pop]);
    try (unfold popn; destruct (nargs t <=? h) eqn:E1; [|discriminate]; rewrite Hl, E1);
    try discriminate; try (apply bind_safe; [auto|intros; discriminate]).
Qed.
Lemma loop_safe t b k h : safe t h -> hts t h (Datatypes.S h) -> safe b h -> hts b h h ->
  safe (fun n => exec_loop n t b k) h.
Proof.
  intros St Ht Sb Hb n. induction n as [|n IH]; intros st s Hl; [discriminate|].
  cbn [exec_loop]. apply bind_safe; [apply St; auto|]. intros st1 s1 E1. pose proof (Ht _ _ _ _ _ Hl E1) as L1.
  destruct st1 as [|v r]; [discriminate|]. cbn [pop]. cbn in L1. destruct (takes k v); [discriminate|].
  apply bind_safe; [apply Sb; lia|]. intros st2 s2 E2. apply IH. eapply Hb; [|exact E2]. lia.
Qed.
Lemma typ_safe : forall c h h' p, typ c h = Some (h', p) -> safe (exec μ c) h.
Proof.
  assert (CC : forall c, Forall (fun i => forall h h' p, typ_item i h = Some (h', p) -> safe (exec_item μ i) h) c ->
    forall h h' p, typ c h = Some (h', p) -> safe (exec μ c) h).
  { induction 1 as [|i c Hi _ IH]; intros h h' p H n st s Hl; cbn [typ exec] in *; [discriminate|].
    apply hseq_some in H. destruct H as (x & y & z & E1 & E2 & ->).
    apply bind_safe; [eapply Hi; eauto|]. intros st1 s1 E.
    eapply IH; [exact E2|].
    refine (typ_hts μ [i] h x (Nat.max y x) _ n st s st1 s1 Hl _).
    - cbn [typ]. rewrite E1. reflexivity.
    - cbn [exec]. rewrite E. reflexivity. }
  intros c. apply CC. apply Forall_forall. intros i _.
  induction i as [o|k b IHb|k b1 b2 IH1 IH2|k t b IHt IHb] using item_ind';
    intros h h' p H; rewrite typ_item_eq in H; intros n st s Hl; rewrite exec_item_eq.
  - destruct (op_ht o h) eqn:F; [|discriminate]. eapply (op_safe _ _ _ F n); eauto.
  - destruct (1 <=? h) eqn:E1; [|discriminate]. apply Nat.leb_le in E1.
    apply heq_some in H. destruct H as (q & H1 & H2).
    destruct st as [|v r]; [cbn in Hl; lia|]. cbn [pop]. destruct (takes k v); [discriminate|].
    eapply CC; eauto. cbn in Hl. lia.
  - destruct (1 <=? h) eqn:E1; [|discriminate]. apply Nat.leb_le in E1.
    apply heq_some in H. destruct H as (q & H1 & H2). apply heq_some in H2. destruct H2 as (q2 & H2 & H3).
    destruct st as [|v r]; [cbn in Hl; lia|]. cbn [pop]. cbn in Hl. destruct (takes k v); eapply CC; eauto; lia.
  - apply heq_some in H. destruct H as (q & H1 & H2). apply heq_some in H2. destruct H2 as (q2 & H2 & H3).
    apply (loop_safe (exec μ t) (exec μ b) k h) with (n := n) (st := st) (s := s); auto.
    + eapply CC; eauto.
    + eapply typ_hts; eauto.
    + eapply CC; eauto.
    + eapply typ_hts; eauto.
Qed.
Lemma run_safe fields cap C lits A c bs L P h p :
  enc fields C lits A 0 c bs L P -> typ c 0 = Some (h, p) -> p <= cap ->
  (forall n s st s', exec μ c n [] s <> Done st s') ->
  forall k s, run μ cap (map fst C) lits bs k 0 [] s <> Stuck.
Proof.
  intros He Ht Hp Ha k s Hr.
  pose proof (sim_code μ fields cap C lits bs A 0 c bs L P He [] [] 0 h p (eq_sym (app_nil_r bs)) eq_refl Ht Hp) as Hs.
  destruct (Hs k [] s eq_refl) as [H1 H2].
  destruct (exec μ c k [] s) eqn:E; try (destruct H1 as [K H1]; [discriminate|]; specialize (H1 k); cbn [bind] in H1;
    rewrite (run_more _ _ _ _ _ k) in H1 by (lia || congruence); congruence).
  - eapply Ha; eauto.
  - rewrite H2 in Hr by auto. discriminate.
  - revert E. eapply typ_safe; eauto.
Qed.
End Safe.

(** * Compiled methods *)
Lemma Forall2_in {A B} (R : A -> B -> Prop) l l' x : Forall2 R l l' -> In x l -> exists y, In y l' /\ R x y.
Proof.
  induction 1 as [|a b l l' Hab _ IH]; intros [].
  - subst. exists b. simpl. auto.
  - destruct IH as (y & Hy & HR); auto. exists y. simpl. auto.
Qed.
Section Compiled.
Variable ce : cenv.
Notation fields := (ce_fields ce).

(** A method, alone or inside another one, together with its code. *)
Definition coded (outer : list (list nat)) (m : meth) : Prop :=
  exists C A c P h p, map fst C = map snd (me_locals m) :: outer /\
    enc fields C (me_lits m) A 0 c (me_bytes m) (me_loops m) P /\
    typ c 0 = Some (h, p) /\ p <= Z.to_nat (me_max m) /\
    (forall S X (μ : machine S X), lawful μ -> forall n s st s', exec μ c n [] s <> Done st s').
Lemma impl_coded C A rho b m : impl fields C A rho b m -> coded (map fst C) m.
Proof.
  intros H. destruct H as [C A rho label ps ls ss ret per out bytes lits locals loops P mx tr body fin p
      Hok Hl Ho He Hn Hf Hsem Ht Hty Hp Hb].
  exists ((map snd locals, t_block_self :: ps) :: C), (nest A out), (body ++ [IOp fin]), P, 1, p.
  cbn [me_locals me_lits me_bytes me_loops me_max]. repeat split; auto; [lia|].
  intros S X μ _ n s st s' E. rewrite exec_app in E. destruct (exec μ body n [] s) as [st1 s1| | | |]; try discriminate.
  cbn [bind] in E. rewrite exec_op1 in E. destruct fin; try contradiction; destruct st1; cbn in E; try discriminate.
  destruct (m_nlr _ _ _ _); discriminate.
Qed.
Lemma all_coded p ps ls ss ret period m :
  forallb ok_src ss = true -> match ret with Some e => ok_src e | None => true end = true ->
  in_layer t_self ls = None ->
  compile_with ce p ps ls ss ret period = Ok m ->
  forall outer m', In (outer, m') (([], m) :: inside m []) -> coded outer m'.
Proof.
  intros Hok Hokr Hself H outer m' [E|Hin].
  - inversion E; subst outer m'. clear E.
    destruct (compiled_code _ _ _ _ _ _ _ _ Hok Hokr Hself H) as (C & A & body & h & q & [M1 (P & M2) M3 M4 M5 M6]).
    exists C, A, body, P, h, q. repeat split; auto; [lia|].
    intros S X μ Hμ n s st s' E. rewrite M5 in E by auto.
    pose proof (method_answers fields ss ret μ [Level [ls] (t_self :: ps)] n s) as Hans.
    destruct (eval_method _ _ _ _ _ _ _) as [v s1| | | |]; try discriminate. eapply Hans; reflexivity.
  - pose proof (compiled_inside ce _ _ _ _ _ _ _ Hok Hokr Hself H) as HF.
    destruct (Forall2_in _ _ _ _ HF Hin) as (y & _ & C & A & E & Hm). cbn [fst snd] in *. subst outer.
    eapply impl_coded; eauto.
Qed.
Lemma coded_heights outer m : coded outer m ->
  exists H : list (nat * nat), (forall pc g g', In (pc, g) H -> In (pc, g') H -> g = g') /\
    (forall pc g, In (pc, g) H -> g <= Z.to_nat (me_max m)) /\
    forall S X (μ : machine S X) s0 pc st s, visits μ outer m s0 pc st s -> In (pc, length st) H.
Proof.
  intros (C & A & c & P & h & p & E1 & E2 & E3 & E4 & _).
  destruct (heights fields (Z.to_nat (me_max m)) C (me_lits m) (me_bytes m) A 0 c (me_bytes m) _ P E2 [] [] 0 h p) as (H & [R F N X0]); auto.
  { rewrite app_nil_r. reflexivity. }
  exists (H ++ [(length (me_bytes m), h)]). rewrite Nat.add_0_l in *. pose proof (typ_peak _ _ _ _ E3) as [Q1 Q2]. repeat split.
  - intros pc g g' Ha Hb. apply in_app_or in Ha, Hb. destruct Ha as [Ha|[Ha|[]]], Hb as [Hb|[Hb|[]]]; eauto; try congruence.
    + inversion Hb; subst. apply R in Ha. lia.
    + inversion Ha; subst. apply R in Hb. lia.
  - intros pc g Ha. apply in_app_or in Ha. destruct Ha as [Ha|[Ha|[]]].
    + apply R in Ha. lia.
    + inversion Ha. lia.
  - intros S X μ s0 pc st s Hv. induction Hv as [|pc st s pc' st' s' Hv IH Hs].
    + apply in_or_app. destruct N as [N|[N1 N2]]; auto. right. left. cbn [length]. congruence.
    + rewrite <- E1 in Hs. apply in_or_app. apply in_app_or in IH. destruct IH as [IH|[IH|[]]].
      * destruct (X0 _ _ _ _ _ _ _ _ _ IH Hs) as [Y|[-> Y]]; auto. right. left. congruence.
      * exfalso. inversion IH; subst. unfold step in Hs. rewrite (proj2 (nth_error_None (me_bytes m) (length (me_bytes m)))) in Hs by lia.
        discriminate.
Qed.
Lemma coded_safe outer m : coded outer m ->
  forall S X (μ : machine S X), lawful μ -> well_behaved μ -> forall k s, run_method μ outer m k s <> Stuck.
Proof.
  intros (C & A & c & P & h & p & E1 & E2 & E3 & E4 & E5) S X μ Hμ W k s. unfold run_method. rewrite <- E1.
  eapply run_safe; eauto.
Qed.
End Compiled.
