From Coq Require Import ZArith Bool String Ascii List Lia.
From Verif Require Import Base LexModel ParseModel BcModel BcInterp AstModel AstMerge RwModel RwSpec RwProofs RwExec.
Import ListNotations.
Open Scope nat_scope.
Open Scope list_scope.

Section RwBuild.
Context {S X K : Type}.
Variable V : vmachine S X.
Variable kind_of : text -> list value -> option K.
Variable s : S.
Notation repr := (repr V kind_of).
Notation holds := (holds V kind_of).
Notation ext := (ext V kind_of).
Definition builds := fix go (l : list node) (H : heap K) : list id * heap K :=
  match l with
  | [] => ([], H)
  | x :: l => let (c, H) := build x H in let (cs, H) := go l H in (c :: cs, H)
  end.
Definition slots (nd : node) (kids : list id) (l : option (list id)) : Prop :=
  match nd with NSeq _ => kids = [] | NWrite _ _ _ => l = None | _ => True end.
Lemma made : forall nd o kids l ad H i H', wf H -> new_node o kids l ad H = (i, H') ->
  Forall2 (repr (s, H)) (children nd) (kids ++ olist l) -> shape V kind_of s nd o -> slots nd kids l ->
  (ad = false -> lonely o = true /\ l = None) ->
  ext (s, H) (s, H') /\ wf H' /\ repr (s, H') nd i.
Proof.
  intros nd o kids l ad H i H' W E F Sh Sl A.
  assert (Va : forall c, In c (kids ++ olist l) -> exists h, node_at H c = Some h).
  { clear - F. induction F; intros c []; subst; auto. eapply (repr_node V kind_of (s, H)); eauto. }
  destruct (new_node_spec V kind_of s o kids l ad H i H' W E Va A) as (Kp & W' & Fr & (hj & Nj & Oj & Kj & Ej) & _ & _).
  apply keeps_ext in Kp. split; [exact Kp|]. split; [exact W'|].
  apply Repr with hj; cbn [fst snd]; auto.
  - rewrite Oj. exact Sh.
  - destruct nd; auto; cbn in Sl; [rewrite Ej, Sl; reflexivity | congruence].
  - unfold all_kids. rewrite Kj, Ej. clear - F Kp. induction F; constructor; auto. apply (e_repr _ _ _ _ Kp); auto.
Qed.
Lemma forall_ext : forall H H' nds l, ext (s, H) (s, H') -> Forall2 (repr (s, H)) nds l -> Forall2 (repr (s, H')) nds l.
Proof. intros H H' nds l E F. induction F; constructor; auto. apply (e_repr _ _ _ _ E); auto. Qed.
Definition builds_to (nd : node) : Prop := forall H i H', wf H -> build nd H = (i, H') ->
  ext (s, H) (s, H') /\ wf H' /\ repr (s, H') nd i.
Lemma builds_spec : forall l, Forall builds_to l -> forall H cs H', wf H -> builds l H = (cs, H') ->
  ext (s, H) (s, H') /\ wf H' /\ Forall2 (repr (s, H')) l cs.
Proof.
  induction l as [|x l IH]; intros Fa H cs H' W E; cbn [builds] in E.
  - injection E as <- <-. split; [apply ext_refl|]. auto.
  - inversion Fa as [|? ? Bx Bl]; subst. destruct (build x H) as (c, H1) eqn:E1. fold builds in E.
    destruct (builds l H1) as (cs1, H2) eqn:E2. injection E as <- <-.
    destruct (Bx _ _ _ W E1) as (X1 & W1 & R1). destruct (IH Bl _ _ _ W1 E2) as (X2 & W2 & R2).
    split; [eapply ext_trans; eauto|]. split; auto. constructor; auto. apply (e_repr _ _ _ _ X2), R1.
Qed.
Ltac leaf := intros; intros Hq iq Hq' W E; cbn [build] in E;
  refine (made _ _ _ _ _ _ _ _ W E _ _ _ _); cbn; auto; try discriminate.
Lemma one_kid : forall nd e o ad, children nd = [e] -> shape V kind_of s nd o -> (forall c, slots nd [c] None) ->
  (ad = false -> lonely o = true /\ @None (list id) = None) -> builds_to e -> forall H i H', wf H ->
  (let (c, H) := build e H in new_node o [c] None ad H) = (i, H') ->
  ext (s, H) (s, H') /\ wf H' /\ repr (s, H') nd i.
Proof.
  intros nd e o ad Ch Sh Sl A B H i H' W E. destruct (build e H) as (c, H1) eqn:E1.
  destruct (B _ _ _ W E1) as (X1 & W1 & R1).
  destruct (made nd _ _ _ _ _ _ _ W1 E) as (X2 & W2 & R2); auto.
  - rewrite Ch. cbn. auto.
  - split; [eapply ext_trans; eauto | auto].
Qed.
Lemma two_kids : forall nd e f o, children nd = [e; f] -> shape V kind_of s nd o -> (forall c d, slots nd [c; d] None) ->
  builds_to e -> builds_to f -> forall H i H', wf H ->
  (let (c, H) := build e H in let (d, H) := build f H in new_node o [c; d] None true H) = (i, H') ->
  ext (s, H) (s, H') /\ wf H' /\ repr (s, H') nd i.
Proof.
  intros nd e f o Ch Sh Sl B C H i H' W E. destruct (build e H) as (c, H1) eqn:E1. destruct (build f H1) as (d, H2) eqn:E2.
  destruct (B _ _ _ W E1) as (X1 & W1 & R1). destruct (C _ _ _ W1 E2) as (X2 & W2 & R2).
  destruct (made nd _ _ _ _ _ _ _ W2 E) as (X3 & W3 & R3); auto; try discriminate.
  - rewrite Ch. cbn. constructor; auto. apply (e_repr _ _ _ _ X2), R1.
  - split; [eapply ext_trans; [exact X1 | eapply ext_trans; eauto] | auto].
Qed.
Lemma three_kids : forall nd e f g o, children nd = [e; f; g] -> shape V kind_of s nd o ->
  (forall a b c, slots nd [a; b; c] None) -> builds_to e -> builds_to f -> builds_to g -> forall H i H', wf H ->
  (let (a, H) := build e H in let (b, H) := build f H in let (c, H) := build g H in new_node o [a; b; c] None true H) = (i, H') ->
  ext (s, H) (s, H') /\ wf H' /\ repr (s, H') nd i.
Proof.
  intros nd e f g o Ch Sh Sl B C D H i H' W E. destruct (build e H) as (c1, H1) eqn:E1.
  destruct (build f H1) as (c2, H2) eqn:E2. destruct (build g H2) as (c3, H3) eqn:E3.
  destruct (B _ _ _ W E1) as (X1 & W1 & R1). destruct (C _ _ _ W1 E2) as (X2 & W2 & R2).
  destruct (D _ _ _ W2 E3) as (X3 & W3 & R3).
  destruct (made nd _ _ _ _ _ _ _ W3 E) as (X4 & W4 & R4); auto; try discriminate.
  - rewrite Ch. cbn. constructor; [apply (e_repr _ _ _ _ X3), (e_repr _ _ _ _ X2), R1|].
    constructor; auto. apply (e_repr _ _ _ _ X3), R2.
  - split; [eapply ext_trans; [exact X1 | eapply ext_trans; [exact X2 | eapply ext_trans; eauto]] | auto].
Qed.
Ltac ones := intros; intros Hq iq Hq' W E; cbn [build] in E;
  refine (one_kid _ _ _ _ _ _ _ _ _ _ _ _ W E); cbn; auto; try discriminate.
Ltac twos := intros; intros Hq iq Hq' W E; cbn [build] in E;
  refine (two_kids _ _ _ _ _ _ _ _ _ _ _ _ W E); cbn; auto; try discriminate.
Ltac threes := intros; intros Hq iq Hq' W E; cbn [build] in E;
  refine (three_kids _ _ _ _ _ _ _ _ _ _ _ _ _ _ W E); cbn; auto; try discriminate.
Lemma build_spec : forall nd, builds_to nd.
Proof.
  apply node_ind'.
  - leaf.
  - leaf.
  - leaf.
  - leaf.
  - leaf.
  - leaf.
  - ones.
  - leaf.
  - ones.
  - leaf.
  - leaf.
  - leaf.
  - intros sel r l Br Bl H i H' W E. cbn [build] in E. fold builds in E.
    destruct (build r H) as (c, H1) eqn:E1. destruct (builds l H1) as (cs, H2) eqn:E2.
    destruct (Br _ _ _ W E1) as (X1 & W1 & R1). destruct (builds_spec l Bl _ _ _ W1 E2) as (X2 & W2 & R2).
    destruct (made (NSend sel r l) _ _ _ _ _ _ _ W2 E) as (X3 & W3 & R3); cbn; auto; try discriminate.
    + constructor; auto. apply (e_repr _ _ _ _ X2), R1.
    + split; [eapply ext_trans; [exact X1 | eapply ext_trans; eauto] | auto].
  - intros sel r l Br Bl H i H' W E. cbn [build] in E. fold builds in E.
    destruct (build r H) as (c, H1) eqn:E1. destruct (builds l H1) as (cs, H2) eqn:E2.
    destruct (Br _ _ _ W E1) as (X1 & W1 & R1). destruct (builds_spec l Bl _ _ _ W1 E2) as (X2 & W2 & R2).
    assert (F : Forall2 (repr (s, H2)) (children (NSuper sel r l)) (c :: cs)).
    { constructor; auto. apply (e_repr _ _ _ _ X2), R1. }
    destruct (length cs <=? 2).
    + destruct (made (NSuper sel r l) _ _ _ _ _ _ _ W2 E) as (X3 & W3 & R3); cbn; auto; try discriminate.
      * rewrite app_nil_r. exact F.
      * split; [eapply ext_trans; [exact X1 | eapply ext_trans; eauto] | auto].
    + destruct (made (NSuper sel r l) _ _ _ _ _ _ _ W2 E) as (X3 & W3 & R3); cbn; auto; try discriminate.
      split; [eapply ext_trans; [exact X1 | eapply ext_trans; eauto] | auto].
  - ones.
  - ones.
  - ones.
  - intros l Bl H i H' W E. cbn [build] in E. fold builds in E.
    destruct (builds l H) as (cs, H2) eqn:E2. destruct (builds_spec l Bl _ _ _ W E2) as (X2 & W2 & R2).
    destruct (made (NSeq l) _ _ _ _ _ _ _ W2 E) as (X3 & W3 & R3); cbn; auto; try discriminate.
    split; [eapply ext_trans; eauto | auto].
  - twos.
  - twos.
  - twos.
  - threes.
  - threes.
  - twos.
  - twos.
  - twos.
Qed.
Lemma load_spec : forall l H rs H', wf H -> load l H = (rs, H') ->
  ext (s, H) (s, H') /\ wf H' /\ Forall2 (fun nd r => holds (s, H') [nd] r) l rs.
Proof.
  induction l as [|nd l IH]; intros H rs H' W E; cbn [load] in E.
  - injection E as <- <-. split; [apply ext_refl|]. auto.
  - destruct (build nd H) as (c, H1) eqn:E1. destruct (new_node OBody [c] None true H1) as (r, H2) eqn:E2.
    destruct (load l H2) as (rs1, H3) eqn:E3. injection E as <- <-.
    destruct (build_spec nd _ _ _ W E1) as (X1 & W1 & R1).
    destruct (new_node_spec V kind_of s _ _ _ _ _ _ _ W1 E2) as (Kp & W2 & _ & (hj & Nj & Oj & Kj & Ej) & _ & _).
    { cbn. intros c0 [<-|[]]. eapply (repr_node V kind_of (s, H1)); eauto. }
    { discriminate. }
    apply keeps_ext in Kp. destruct (IH _ _ _ W2 E3) as (X3 & W3 & F3).
    split; [eapply ext_trans; [exact X1 | eapply ext_trans; eauto]|]. split; auto. constructor; auto.
    apply (e_holds _ _ _ _ X3). exists hj. cbn [fst snd]. split; auto. rewrite Oj. split; auto.
    unfold all_kids. rewrite Kj, Ej. cbn. constructor; auto. apply (e_repr _ _ _ _ Kp), R1.
Qed.
Lemma wf_empty : wf (Heap [] [] : heap K).
Proof.
  constructor.
  - intros i h c N. destruct i; discriminate.
  - intros a c I. destruct a; contradiction.
  - intros i h a N. destruct i; discriminate.
Qed.
Lemma loaded : forall bodies rs H, load bodies (Heap [] []) = (rs, H) -> inv V kind_of bodies (nth_error rs) (s, H).
Proof.
  intros bodies rs H E. destruct (load_spec _ _ _ _ wf_empty E) as (_ & W & F). split; [exact W|].
  intros k. clear - F. revert k. induction F; intros [|k]; cbn; eauto. apply IHF.
Qed.
End RwBuild.
