From Coq Require Import ZArith Bool String Ascii List Lia.
From Verif Require Import Base LexModel ParseModel BcModel BcInterp AstModel RwModel RwSpec.
Import ListNotations.
Open Scope nat_scope.
Open Scope list_scope.

Definition children (nd : node) : list node :=
  match nd with
  | NWrite _ _ e | NFldW _ _ e | NInc e | NRetNL _ e | NRetLoc e => [e]
  | NSend _ r l | NSuper _ r l => r :: l
  | NSeq l => l
  | NIf _ a b | NIfNil a b | NIfNotNil a b | NWhile _ a b | NAnd a b | NOr a b => [a; b]
  | NIfElse _ a b c | NIfNN a b c => [a; b; c]
  | _ => []
  end.
Lemma list_max_in : forall l x, In x l -> x <= list_max l.
Proof.
  intros l x I. pose proof (proj1 (list_max_le l (list_max l)) (le_n _)) as F.
  rewrite Forall_forall in F. auto.
Qed.
Lemma height_in : forall l x, In x l -> height x <= list_max (map height l).
Proof. intros l x I. apply list_max_in, in_map, I. Qed.
Lemma height_child : forall nd c, In c (children nd) -> height c < height nd.
Proof.
  intros nd x I; destruct nd; cbn [children height] in *; try contradiction; cbn [In] in I;
    repeat match goal with H : _ \/ _ |- _ => destruct H as [<-|H] | H : False |- _ => contradiction end;
    try lia; match goal with H : In _ _ |- _ => apply height_in in H; lia end.
Qed.
Lemma node_children_ind : forall P : node -> Prop,
  (forall nd, (forall c, In c (children nd) -> P c) -> P nd) -> forall nd, P nd.
Proof.
  intros P F nd. remember (height nd) as k eqn:E. revert nd E.
  induction k as [k IH] using lt_wf_ind. intros nd ->. apply F. intros c I.
  eapply IH; [apply (height_child _ _ I) | reflexivity].
Qed.

Section SetNth.
Lemma set_nth_length : forall A (l : list A) i x, length (set_nth l i x) = length l.
Proof. induction l; destruct i; cbn; intros; auto. Qed.
Lemma set_nth_eq : forall A (l : list A) i x, i < length l -> nth_error (set_nth l i x) i = Some x.
Proof. induction l; destruct i; cbn; intros; try lia; auto. apply IHl. lia. Qed.
Lemma set_nth_neq : forall A (l : list A) i j x, i <> j -> nth_error (set_nth l i x) j = nth_error l j.
Proof. induction l; destruct i, j; cbn; intros; try lia; auto. Qed.
End SetNth.

Section Rw.
Context {S X K : Type}.
Variable V : vmachine S X.
Variable kind_of : text -> list value -> option K.
Variable fits : K -> list value -> bool.
Notation sh := (S * heap K)%type.
Notation le := (le V).

(** * Nodes in the heap *)
Definition shape (s : S) (nd : node) (o : op K) : Prop :=
  match nd, o with
  | NLit v, OLit w => v = w
  | NArr l, OArr m => l = m
  | NBlk _ l _ _ _, OBlk m => l = m
  | NBlkT _ l _ _, OBlk m => l = m
  | NRead v k, OReadU w j => v = w /\ k = j
  | NRead v k, OReadI w j => v = w /\ k = j
  | NSelf k, OSelf j => k = j
  | NWrite v k _, OWriteU w j => v = w /\ k = j
  | NWrite v k _, OWriteI w j => v = w /\ k = j
  | NFldR k i, OFldR a b => k = a /\ i = b
  | NFldW k i _, OFldW a b => k = a /\ i = b
  | NFldI k i, OFldI a b => k = a /\ i = b
  | NGlob n, OGlobC m => n = m
  | NUnk n k, OGlobU m j => n = m /\ k = j
  | NUnk n k, OGlobC m => n = m /\ v_has V n s = true
  | NSend sel _ _, OMsgU t => sel = t
  | NSend sel _ _, OSendI t => sel = t
  | NSend sel _ _, OSpec kind t => sel = t /\ exists vs, kind_of sel vs = Some kind
  | NSuper sel _ _, OSuper t => sel = t
  | NInc _, OInc => True
  | NRetNL k _, ORetNL j => k = j
  | NRetLoc _, ORetLoc => True
  | NSeq _, OSeq => True
  | NIf b _ _, OIf c => b = c
  | NIfNil _ _, OIfNil => True
  | NIfNotNil _ _, OIfNotNil => True
  | NIfElse b _ _ _, OIfElse c => b = c
  | NIfNN _ _ _, OIfNN => True
  | NWhile b _ _, OWhile c => b = c
  | NAnd _ _, OAnd => True
  | NOr _ _, OOr => True
  | _, _ => False
  end.
Definition lonely (o : op K) : bool := match o with OWriteU _ _ => true | _ => false end.
Inductive repr (x : sh) : node -> id -> Prop :=
| Repr : forall nd i h, node_at (snd x) i = Some h -> shape (fst x) nd (h_op h) ->
    match nd with NSeq _ => h_kids h = [] | NWrite _ _ _ => elems (snd x) h = [] | _ => True end ->
    Forall2 (repr x) (children nd) (all_kids (snd x) h) -> repr x nd i.
Definition holds (x : sh) (nds : list node) (i : id) : Prop :=
  exists h, node_at (snd x) i = Some h /\ lonely (h_op h) = false /\
    Forall2 (repr x) nds (all_kids (snd x) h).
Definition lholds (x : sh) (nds : list node) (a : nat) : Prop :=
  a < length (h_lists (snd x)) /\ Forall2 (repr x) nds (list_at (snd x) a).
Definition par (H : heap K) (c : id) : Prop :=
  exists h p, node_at H c = Some h /\ h_parent h = Some p.
Record wf (H : heap K) : Prop := {
  wf_kids : forall i h c, node_at H i = Some h -> lonely (h_op h) = false -> In c (h_kids h) -> par H c;
  wf_list : forall a c, In c (list_at H a) -> par H c;
  wf_addr : forall i h a, node_at H i = Some h -> h_list h = Some a -> a < length (h_lists H) }.
Record ext (x x' : sh) : Prop := {
  e_le : le (fst x) (fst x');
  e_repr : forall nd i, repr x nd i -> repr x' nd i;
  e_holds : forall nds i, holds x nds i -> holds x' nds i;
  e_lholds : forall nds a, lholds x nds a -> lholds x' nds a;
  e_par : forall i, par (snd x) i -> par (snd x') i;
  e_node : forall i h, node_at (snd x) i = Some h ->
    exists h', node_at (snd x') i = Some h' /\ h_op h' = h_op h /\ length (h_kids h') = length (h_kids h) }.
Lemma ext_refl : forall x, ext x x.
Proof. intros x. constructor; auto. - intros g; auto. - eauto. Qed.
Lemma ext_trans : forall x y z, ext x y -> ext y z -> ext x z.
Proof.
  intros x y z A B. constructor; intros.
  - intros g Hg. apply (e_le _ _ B), (e_le _ _ A), Hg.
  - apply (e_repr _ _ B), (e_repr _ _ A); auto.
  - apply (e_holds _ _ B), (e_holds _ _ A); auto.
  - apply (e_lholds _ _ B), (e_lholds _ _ A); auto.
  - apply (e_par _ _ B), (e_par _ _ A); auto.
  - destruct (e_node _ _ A _ _ H) as (h1 & N1 & O1 & L1). destruct (e_node _ _ B _ _ N1) as (h2 & N2 & O2 & L2).
    exists h2. repeat split; congruence.
Qed.
Lemma shape_le : forall s s' nd o, le s s' -> shape s nd o -> shape s' nd o.
Proof.
  intros s s' nd o L F. destruct nd, o; cbn in *; auto. destruct F; split; auto.
Qed.

(** A change of the heap under which every child becomes something that does as well. *)
Definition fine (x : sh) (f : id -> id) : Prop :=
  forall c, f c = c \/ forall nd, repr x nd c -> repr x nd (f c).
Lemma fine_id : forall x, fine x (fun c => c).
Proof. intros x c. left; reflexivity. Qed.
Record keeps (x x' : sh) : Prop := {
  k_le : le (fst x) (fst x');
  k_node : forall i h, node_at (snd x) i = Some h ->
    exists h' f g, node_at (snd x') i = Some h' /\ h_op h' = h_op h /\
      h_kids h' = map f (h_kids h) /\ elems (snd x') h' = map g (elems (snd x) h) /\
      fine x f /\ fine x g /\
      (forall p, h_parent h = Some p -> exists q, h_parent h' = Some q);
  k_list : forall a, a < length (h_lists (snd x)) -> a < length (h_lists (snd x')) /\
    exists f, list_at (snd x') a = map f (list_at (snd x) a) /\ fine x f }.
Lemma keeps_forall' : forall x x' f, fine x f -> forall nds l,
  (forall nd, In nd nds -> forall i, repr x nd i -> repr x' nd i) ->
  Forall2 (repr x) nds l -> Forall2 (repr x') nds (map f l).
Proof.
  intros x x' f F nds l IH H. induction H; cbn [map]; constructor.
  - apply IH; [left; reflexivity|]. destruct (F y) as [-> | G]; auto.
  - apply IHForall2. intros c I. apply IH. right; exact I.
Qed.
Lemma forall2_map2 : forall x x' f g, fine x f -> fine x g -> forall nds l m,
  (forall nd, In nd nds -> forall i, repr x nd i -> repr x' nd i) ->
  Forall2 (repr x) nds (l ++ m) -> Forall2 (repr x') nds (map f l ++ map g m).
Proof.
  intros x x' f g F G nds l m IH H. apply Forall2_app_inv_r in H. destruct H as (n1 & n2 & A & B & ->).
  apply Forall2_app; eapply keeps_forall'; eauto; intros; apply IH; auto; apply in_or_app; auto.
Qed.
Lemma keeps_repr : forall x x', keeps x x' -> forall nd i, repr x nd i -> repr x' nd i.
Proof.
  intros x x' E. induction nd as [nd IH] using node_children_ind. intros i R. inversion R; subst.
  destruct (k_node _ _ E _ _ H) as (h' & f & g & N & O & Ks & Es & F & G & _).
  apply Repr with h'; auto.
  - rewrite O. eapply shape_le; [apply (k_le _ _ E) | assumption].
  - destruct nd; auto; [rewrite Es | rewrite Ks]; rewrite H1; reflexivity.
  - unfold all_kids. rewrite Ks, Es. eapply forall2_map2; eauto.
Qed.
Lemma keeps_forall : forall x x', keeps x x' -> forall f, fine x f ->
  forall nds l, Forall2 (repr x) nds l -> Forall2 (repr x') nds (map f l).
Proof.
  intros x x' E f F nds l H. eapply keeps_forall'; eauto. intros. eapply keeps_repr; eauto.
Qed.
Lemma keeps_ext : forall x x', keeps x x' -> ext x x'.
Proof.
  intros x x' E. constructor.
  - apply (k_le _ _ E).
  - apply (keeps_repr _ _ E).
  - intros nds i (h & N & L & F). destruct (k_node _ _ E _ _ N) as (h' & f & g & N' & O & Ks & Es & Ff & Fg & _).
    exists h'. rewrite O. split; [|split]; auto. unfold all_kids. rewrite Ks, Es.
    eapply forall2_map2; eauto. intros. eapply keeps_repr; eauto.
  - intros nds a (L & F). destruct (k_list _ _ E _ L) as (L' & f & G & Hf). split; auto. rewrite G.
    apply (keeps_forall _ _ E); auto.
  - intros i (h & p & N & P). destruct (k_node _ _ E _ _ N) as (h' & f & g & N' & _ & _ & _ & _ & _ & Q).
    destruct (Q _ P) as (q & Hq). exists h', q. auto.
  - intros i h N. destruct (k_node _ _ E _ _ N) as (h' & f & g & N' & O & Ks & _ ).
    exists h'. rewrite Ks, map_length. auto.
Qed.

(** ** Parents *)
Lemma node_set_parent : forall p (H : heap K) c i, node_at (set_parent p H c) i =
  if i =? c then match node_at H c with Some h => Some (HNode (h_op h) (h_kids h) (h_list h) (Some p)) | None => None end
  else node_at H i.
Proof.
  intros p H c i. unfold set_parent. destruct (node_at H c) as [h|] eqn:N.
  - unfold node_at, set_node in *. cbn [h_nodes]. destruct (Nat.eqb_spec i c) as [->|D].
    + apply set_nth_eq. apply nth_error_Some. congruence.
    + apply set_nth_neq. congruence.
  - destruct (Nat.eqb_spec i c) as [->|D]; auto.
Qed.
Lemma lists_set_parent : forall p (H : heap K) c, h_lists (set_parent p H c) = h_lists H.
Proof. intros. unfold set_parent. destruct (node_at H c); reflexivity. Qed.
(** nothing but parents changes *)
Definition same (H H' : heap K) : Prop :=
  h_lists H' = h_lists H /\ length (h_nodes H') = length (h_nodes H) /\
  forall i h, node_at H i = Some h -> exists q, node_at H' i = Some (HNode (h_op h) (h_kids h) (h_list h) q) /\
    (forall p, h_parent h = Some p -> exists p', q = Some p').
Lemma same_refl : forall H, same H H.
Proof. intros H. split; [|split]; auto. intros i [o k l q] N. exists q. split; auto. intros p E; eauto. Qed.
Lemma same_trans : forall A B C, same A B -> same B C -> same A C.
Proof.
  intros A B C (L & M & F) (L' & M' & F'). split; [|split]; try congruence. intros i h N.
  destruct (F _ _ N) as (q & N1 & P1). destruct (F' _ _ N1) as (q' & N2 & P2). cbn in N2.
  exists q'. split; auto. intros p E. destruct (P1 _ E) as (p' & ->). apply (P2 p'). reflexivity.
Qed.
Lemma same_set_parent : forall p H c, same H (set_parent p H c).
Proof.
  intros p H c. split; [apply lists_set_parent|split].
  - unfold set_parent. destruct (node_at H c); auto. cbn. apply set_nth_length.
  - intros i h N. rewrite node_set_parent. destruct (Nat.eqb_spec i c) as [->|D].
    + rewrite N. eauto.
    + rewrite N. destruct h. cbn. eexists; split; eauto.
Qed.
Lemma same_par : forall A B c, same A B -> par A c -> par B c.
Proof.
  intros A B c (_ & _ & F) (h & p & N & P). destruct (F _ _ N) as (q & N' & G). destruct (G _ P) as (p' & ->).
  eexists _, p'. split; eauto.
Qed.
Lemma same_node : forall A B i h, same A B -> node_at B i = Some h -> exists h0, node_at A i = Some h0 /\
  h_op h = h_op h0 /\ h_kids h = h_kids h0 /\ h_list h = h_list h0.
Proof.
  intros A B i h (_ & M & F) N. assert (i < length (h_nodes A)).
  { rewrite <- M. apply nth_error_Some. unfold node_at in N. congruence. }
  destruct (node_at A i) as [h0|] eqn:E; [|apply nth_error_None in E; lia].
  destruct (F _ _ E) as (q & N' & _). rewrite N in N'. injection N' as ->. exists h0. auto.
Qed.
Lemma adopted : forall cs i (H : heap K), same H (fold_left (set_parent i) cs H) /\
  forall c, In c cs -> (exists h, node_at H c = Some h) -> par (fold_left (set_parent i) cs H) c.
Proof.
  induction cs as [|c cs IH]; intros i H; cbn [fold_left].
  - split; [apply same_refl | intros c []].
  - destruct (IH i (set_parent i H c)) as (A & B). split.
    + eapply same_trans; [apply same_set_parent | exact A].
    + intros d [<-|I] (h & N).
      * apply (same_par _ _ _ A). exists (HNode (h_op h) (h_kids h) (h_list h) (Some i)), i.
        rewrite node_set_parent, Nat.eqb_refl, N. auto.
      * apply B; auto. destruct (same_set_parent i H c) as (_ & _ & G). destruct (G _ _ N) as (q & N' & _). eauto.
Qed.
Lemma same_keeps : forall s A B, same A B -> keeps (s, A) (s, B).
Proof.
  intros s A B (L & M & F). constructor; cbn [fst snd].
  - intros g; auto.
  - intros i h N. destruct (F _ _ N) as (q & N' & G). eexists _, (fun c => c), (fun c => c). split; [exact N'|]. cbn.
    rewrite !map_id. repeat split; auto using fine_id. unfold elems, list_at. cbn. rewrite L. reflexivity.
  - intros a I. rewrite L. split; auto. exists (fun c => c). rewrite map_id. unfold list_at. rewrite L. auto using fine_id.
Qed.
Lemma same_wf : forall A B, same A B -> wf A -> wf B.
Proof.
  intros A B E W. pose proof E as (L & M & F). constructor.
  - intros i h c N O I. destruct (same_node _ _ _ _ E N) as (h0 & N0 & O0 & K0 & L0).
    apply (same_par _ _ _ E). eapply (wf_kids _ W); [exact N0 | congruence | congruence].
  - intros a c I. unfold list_at in *. rewrite L in I. apply (same_par _ _ _ E). exact (wf_list _ W a c I).
  - intros i h a N O. destruct (same_node _ _ _ _ E N) as (h0 & N0 & _ & _ & L0). rewrite L.
    eapply (wf_addr _ W); [exact N0 | congruence].
Qed.

(** ** New nodes *)
Definition olist (l : option (list id)) : list id := match l with Some l => l | None => [] end.
Definition base (o : op K) kids l (H : heap K) : heap K :=
  Heap (h_nodes H ++ [HNode o kids (match l with Some _ => Some (length (h_lists H)) | None => None end) None])
       (match l with Some l => h_lists H ++ [l] | None => h_lists H end).
Lemma base_old : forall o kids l H i h, node_at H i = Some h -> node_at (base o kids l H) i = Some h.
Proof.
  intros. unfold node_at, base in *. cbn [h_nodes]. rewrite nth_error_app1; auto. apply nth_error_Some. congruence.
Qed.
Lemma base_list : forall o kids l H a, a < length (h_lists H) -> list_at (base o kids l H) a = list_at H a.
Proof.
  intros. unfold list_at, base. cbn [h_lists]. destruct l; auto. apply app_nth1. assumption.
Qed.
Lemma base_new : forall o kids l H, node_at (base o kids l H) (length (h_nodes H)) =
  Some (HNode o kids (match l with Some _ => Some (length (h_lists H)) | None => None end) None).
Proof.
  intros. unfold node_at, base. cbn [h_nodes]. rewrite nth_error_app2, Nat.sub_diag; auto.
Qed.
Lemma base_elems : forall o kids l H p,
  elems (base o kids l H) (HNode o kids (match l with Some _ => Some (length (h_lists H)) | None => None end) p) = olist l.
Proof.
  intros. unfold elems. cbn [h_list]. destruct l; auto. unfold list_at, base. cbn [h_lists].
  rewrite app_nth2, Nat.sub_diag; auto.
Qed.
Lemma base_keeps : forall s o kids l H, wf H -> keeps (s, H) (s, base o kids l H).
Proof.
  intros s o kids l H W. constructor; cbn [fst snd].
  - intros g; auto.
  - intros i h N. exists h, (fun c => c), (fun c => c). rewrite !map_id. split; [apply base_old, N|].
    repeat split; auto using fine_id.
    + unfold elems. destruct (h_list h) as [a|] eqn:E; auto. apply base_list. eapply (wf_addr _ W); eauto.
    + eauto.
  - intros a I. split.
    + unfold base. cbn [h_lists]. destruct l; auto. rewrite app_length. cbn. lia.
    + exists (fun c => c). rewrite map_id. split; auto using fine_id. apply base_list, I.
Qed.
Lemma new_node_spec : forall s o kids l ad (H : heap K) i H', wf H -> new_node o kids l ad H = (i, H') ->
  (forall c, In c (kids ++ olist l) -> exists h, node_at H c = Some h) ->
  (ad = false -> lonely o = true /\ l = None) ->
  keeps (s, H) (s, H') /\ wf H' /\ node_at H i = None /\
  (exists h, node_at H' i = Some h /\ h_op h = o /\ h_kids h = kids /\ elems H' h = olist l) /\
  (ad = true -> forall c, In c (kids ++ olist l) -> par H' c) /\
  (forall j h, node_at H j = Some h -> exists h', node_at H' j = Some h' /\ h_op h' = h_op h /\
     h_kids h' = h_kids h /\ elems H' h' = elems H h /\ (forall p, h_parent h = Some p -> par H' j)).
Proof.
  intros s o kids l ad H i H' W E Ok A. unfold new_node in E. fold (base o kids l H) in E. fold (olist l) in E.
  injection E as <- E.
  assert (Nd : node_at H (length (h_nodes H)) = None) by (apply nth_error_None; lia).
  set (B := base o kids l H) in *.
  assert (Q : same B H' /\ (ad = true -> forall c, In c (kids ++ olist l) -> par H' c)).
  { destruct ad.
    - destruct (adopted (kids ++ olist l) (length (h_nodes H)) B) as (Q & P). rewrite E in Q, P. split; auto.
      intros _ c I. apply P; auto. destruct (Ok c I) as (h & N). exists h. apply base_old, N.
    - subst H'. split; [apply same_refl | discriminate]. }
  destruct Q as (Sm & Pa). destruct Sm as (L & M & F) eqn:ES. clear ES.
  assert (Sm2 : same B H') by (split; auto).
  assert (KB : keeps (s, H) (s, B)) by apply (base_keeps s o kids l H W).
  assert (New : exists h, node_at H' (length (h_nodes H)) = Some h /\ h_op h = o /\ h_kids h = kids /\
    elems H' h = olist l /\ h_list h = match l with Some _ => Some (length (h_lists H)) | None => None end).
  { destruct (F _ _ (base_new o kids l H)) as (q & N & _). cbn [h_op h_kids h_list] in N.
    eexists. split; [exact N|]. cbn [h_op h_kids h_list]. repeat split.
    unfold elems, list_at. rewrite L. exact (base_elems o kids l H q). }
  assert (PH : forall c, par H c -> par H' c).
  { intros c (h & p & N & P). apply (same_par _ _ _ Sm2). exists h, p. split; auto. apply base_old, N. }
  assert (Old : forall j h, node_at H' j = Some h -> j <> length (h_nodes H) -> exists h0, node_at H j = Some h0 /\
    h_op h = h_op h0 /\ h_kids h = h_kids h0 /\ h_list h = h_list h0).
  { intros j h N D. destruct (same_node _ _ _ _ Sm2 N) as (h0 & N0 & R). exists h0. split; auto.
    unfold B, node_at, base in N0. cbn [h_nodes] in N0.
    destruct (Nat.lt_ge_cases j (length (h_nodes H))) as [J|J]; [rewrite nth_error_app1 in N0 by lia; exact N0|].
    rewrite nth_error_app2 in N0 by lia. destruct (j - length (h_nodes H)) as [|k] eqn:J2; [lia|].
    cbn in N0. destruct k; discriminate. }
  split; [|split; [|split; [|split; [|split]]]]; auto.
  - constructor; cbn [fst snd].
    + intros g; auto.
    + intros j h N. destruct (F j h (base_old _ _ _ _ _ _ N)) as (q & N' & G).
      eexists _, (fun c => c), (fun c => c). split; [exact N'|]. cbn. rewrite !map_id. repeat split; auto using fine_id.
      unfold elems. cbn. destruct (h_list h) as [a|] eqn:EL; auto. unfold list_at. rewrite L.
      apply (base_list o kids l H a). eapply (wf_addr _ W); eauto.
    + intros a I. rewrite L. split.
      * unfold B, base. cbn [h_lists]. destruct l; auto. rewrite app_length. cbn. lia.
      * exists (fun c => c). rewrite map_id. split; auto using fine_id. unfold list_at. rewrite L. apply (base_list o kids l H a I).
  - constructor.
    + intros j h c N O I. destruct (Nat.eq_dec j (length (h_nodes H))) as [->|D].
      * destruct New as (h0 & N0 & O0 & K0 & _). assert (h0 = h) by congruence. subst h0.
        destruct ad; [|destruct (A eq_refl) as (A1 & _); congruence]. apply Pa; auto. apply in_or_app. left. congruence.
      * destruct (Old _ _ N D) as (h0 & N0 & O0 & K0 & _). apply PH. eapply (wf_kids _ W); [exact N0 | congruence | congruence].
    + intros a c I. unfold list_at in I. rewrite L in I. unfold B, base in I. cbn [h_lists] in I.
      destruct l as [l|]; [|apply PH; exact (wf_list _ W a c I)].
      destruct (Nat.lt_ge_cases a (length (h_lists H))) as [J|J].
      * rewrite app_nth1 in I by assumption. apply PH. exact (wf_list _ W a c I).
      * rewrite app_nth2 in I by assumption. destruct (a - length (h_lists H)) as [|k]; cbn in I; [|destruct k; contradiction].
        destruct ad; [|destruct (A eq_refl); discriminate]. apply Pa; auto. apply in_or_app. right; exact I.
    + intros j h a N O. rewrite L. destruct (Nat.eq_dec j (length (h_nodes H))) as [->|D].
      * destruct New as (h0 & N0 & _ & _ & _ & L0). assert (h0 = h) by congruence. subst h0. rewrite O in L0.
        destruct l; [|discriminate]. injection L0 as ->. unfold B, base. cbn [h_lists]. rewrite app_length. cbn. lia.
      * destruct (Old _ _ N D) as (h0 & N0 & _ & _ & L0). assert (a < length (h_lists H)) by (eapply (wf_addr _ W); [exact N0 | congruence]).
        unfold B, base. cbn [h_lists]. destruct l; auto. rewrite app_length. cbn. lia.
  - destruct New as (h & N & O & K0 & E0 & _). exists h. auto.
  - intros j h N. destruct (F j h (base_old _ _ _ _ _ _ N)) as (q & N' & G). eexists. split; [exact N'|].
    cbn [h_op h_kids]. split; [|split; [|split]]; auto.
    + unfold elems. cbn [h_list]. destruct (h_list h) as [a|] eqn:EL; auto. unfold list_at. rewrite L.
      apply (base_list o kids l H a). eapply (wf_addr _ W); eauto.
    + intros p P. destruct (G p P) as (p' & ->). eexists _, p'. split; [exact N'|]. reflexivity.
Qed.

(** ** Replacing *)
Lemma subst_fine : forall x old new, (forall nd, repr x nd old -> repr x nd new) -> fine x (subst old new).
Proof.
  intros x old new R c. unfold subst. destruct (Nat.eqb_spec c old) as [->|]; auto.
Qed.
Lemma subst_notin : forall old new l, existsb (Nat.eqb old) l = false -> map (subst old new) l = l.
Proof.
  induction l as [|c l IH]; cbn; auto. intros E. apply orb_false_iff in E as (A & B). rewrite IH by auto.
  unfold subst. rewrite Nat.eqb_sym, A. reflexivity.
Qed.
Lemma subst_in : forall old new l c, In c (map (subst old new) l) -> c = new \/ In c l.
Proof.
  intros old new l c I. apply in_map_iff in I as (d & E & I). unfold subst in E.
  destruct (d =? old); [left; auto | right; congruence].
Qed.
Definition either (f : id -> id) old new : Prop := (forall c, f c = c) \/ (forall c, f c = subst old new c).
Lemma list_set_nth : forall (H : list (list id)) a b l m, b < length H ->
  nth b (set_nth H a l ++ m) [] = if b =? a then l else nth b H [].
Proof.
  intros H a b l m I. rewrite app_nth1 by (rewrite set_nth_length; exact I).
  destruct (Nat.eqb_spec b a) as [->|D].
  - apply nth_error_nth. apply set_nth_eq, I.
  - destruct (nth_error H b) as [q|] eqn:E; [|apply nth_error_None in E; lia].
    rewrite (nth_error_nth _ _ _ E). apply nth_error_nth. rewrite set_nth_neq; auto.
Qed.
Lemma map_either : forall f old new l, either f old new -> map f l = l \/ map f l = map (subst old new) l.
Proof.
  intros f old new l [A|A]; [left|right].
  - rewrite <- (map_id l) at 2. apply map_ext, A.
  - apply map_ext, A.
Qed.
Lemma rcw_spec : forall p old new (H : heap K), wf H ->
  let H1 := replace_child_with p old new H in
  length (h_lists H) <= length (h_lists H1) /\
  (forall a, a < length (h_lists H) -> exists f, either f old new /\ list_at H1 a = map f (list_at H a)) /\
  (forall a, a < length (h_lists H) \/ exists b, list_at H1 a = map (subst old new) (list_at H b) \/ list_at H1 a = []) /\
  length (h_nodes H1) = length (h_nodes H) /\
  (forall i h, node_at H i = Some h -> exists h' f g, node_at H1 i = Some h' /\ h_op h' = h_op h /\
     h_parent h' = h_parent h /\ either f old new /\ either g old new /\
     h_kids h' = map f (h_kids h) /\ elems H1 h' = map g (elems H h) /\
     (forall a, h_list h' = Some a -> a < length (h_lists H1))).
Proof.
  intros p old new H W. cbv zeta. unfold replace_child_with.
  destruct (node_at H p) as [h|] eqn:N.
  2:{ split; [|split; [|split; [|split]]]; auto.
      - intros a I. exists (fun c => c). rewrite map_id. split; [left|]; auto.
      - intros a. destruct (Nat.lt_ge_cases a (length (h_lists H))); auto. right. exists 0. right.
        unfold list_at. apply nth_overflow. assumption.
      - intros i h N'. exists h, (fun c => c), (fun c => c). rewrite !map_id.
        repeat split; auto; try (left; reflexivity). intros a L. eapply (wf_addr _ W); eauto. }
  assert (Lp : p < length (h_nodes H)) by (apply nth_error_Some; unfold node_at in N; congruence).
  assert (Triv : forall h0, h_op h0 = h_op h -> h_parent h0 = h_parent h -> h_kids h0 = map (subst old new) (h_kids h) ->
    h_list h0 = h_list h -> elems H h = map (subst old new) (elems H h) ->
    let H1 := set_node H p h0 in
    length (h_lists H) <= length (h_lists H1) /\
    (forall a, a < length (h_lists H) -> exists f, either f old new /\ list_at H1 a = map f (list_at H a)) /\
    (forall a, a < length (h_lists H) \/ exists b, list_at H1 a = map (subst old new) (list_at H b) \/ list_at H1 a = []) /\
    length (h_nodes H1) = length (h_nodes H) /\
    (forall i h, node_at H i = Some h -> exists h' f g, node_at H1 i = Some h' /\ h_op h' = h_op h /\
       h_parent h' = h_parent h /\ either f old new /\ either g old new /\
       h_kids h' = map f (h_kids h) /\ elems H1 h' = map g (elems H h) /\
       (forall a, h_list h' = Some a -> a < length (h_lists H1)))).
  { intros h0 O0 P0 K0 L0 E0. cbv zeta. split; [|split; [|split; [|split]]]; auto.
    - intros a I. exists (fun c => c). rewrite map_id. split; [left|]; auto.
    - intros a. destruct (Nat.lt_ge_cases a (length (h_lists H))); auto. right. exists 0. right.
      unfold list_at, set_node. cbn [h_lists]. apply nth_overflow. assumption.
    - unfold set_node. cbn [h_nodes]. apply set_nth_length.
    - intros i h1 N'. destruct (Nat.eq_dec i p) as [->|D].
      + assert (h1 = h) by congruence. subst h1. exists h0, (subst old new), (subst old new).
        split; [unfold node_at, set_node; cbn [h_nodes]; apply set_nth_eq, Lp|].
        repeat split; auto; try (right; reflexivity).
        * unfold elems, list_at, set_node in *. cbn [h_lists] in *. rewrite L0. exact E0.
        * intros a L. unfold set_node; cbn [h_lists]. eapply (wf_addr _ W); [exact N | congruence].
      + exists h1, (fun c => c), (fun c => c). rewrite !map_id.
        split; [unfold node_at, set_node in *; cbn [h_nodes]; rewrite set_nth_neq; auto|].
        repeat split; auto; try (left; reflexivity). intros a L. eapply (wf_addr _ W); eauto. }
  destruct (h_list h) as [a|] eqn:L.
  2:{ apply Triv; auto. unfold elems. rewrite L. reflexivity. }
  destruct (existsb (Nat.eqb old) (list_at H a)) eqn:Ex.
  2:{ apply Triv; auto. unfold elems. rewrite L. symmetry. apply subst_notin, Ex. }
  clear Triv. assert (La : a < length (h_lists H)) by (eapply (wf_addr _ W); eauto).
  set (l := map (subst old new) (list_at H a)).
  unfold set_node. cbn [h_lists h_nodes]. rewrite app_length, set_nth_length. cbn [length].
  replace (length (h_lists H) + 1 - 1) with (length (h_lists H)) by lia.
  assert (At : forall b, b < length (h_lists H) -> forall ns : list (hnode K),
    list_at (Heap ns (set_nth (h_lists H) a l ++ [l])) b = map (if b =? a then subst old new else fun c => c) (list_at H b)).
  { intros b I ns. unfold list_at. cbn [h_lists]. rewrite list_set_nth by exact I.
    destruct (Nat.eqb_spec b a) as [->|D]; [reflexivity|]. rewrite map_id. reflexivity. }
  assert (Ei : forall b, either (if b =? a then subst old new else fun c => c) old new).
  { intros b. destruct (b =? a); [right|left]; auto. }
  split; [|split; [|split; [|split]]].
  - lia.
  - intros b I. eexists. split; [apply (Ei b)|]. apply At, I.
  - intros b. destruct (Nat.lt_ge_cases b (length (h_lists H))); auto. right. exists a.
    unfold list_at. cbn [h_lists]. rewrite app_nth2 by (rewrite set_nth_length; assumption). rewrite set_nth_length.
    destruct (b - length (h_lists H)) as [|k]; [left; reflexivity | right; destruct k; reflexivity].
  - apply set_nth_length.
  - intros i h1 N'. destruct (Nat.eq_dec i p) as [->|D].
    + assert (h1 = h) by congruence. subst h1. eexists _, (subst old new), (subst old new).
      split; [unfold node_at; cbn [h_nodes]; apply set_nth_eq, Lp|]. cbn [h_op h_parent h_kids h_list].
      repeat split; auto; try (right; reflexivity).
      * unfold elems. cbn [h_list]. rewrite L. unfold list_at at 1. cbn [h_lists].
        rewrite app_nth2 by (rewrite set_nth_length; lia). rewrite set_nth_length, Nat.sub_diag. reflexivity.
      * intros b E. injection E as <-. lia.
    + exists h1, (fun c => c), (match h_list h1 with Some b => if b =? a then subst old new else fun c => c | None => fun c => c end).
      rewrite map_id.
      split; [unfold node_at in *; cbn [h_nodes]; rewrite set_nth_neq; auto|].
      repeat split; auto; try (left; reflexivity).
      * destruct (h_list h1) as [b|]; [apply Ei | left; auto].
      * unfold elems. destruct (h_list h1) as [b|] eqn:L1; [|reflexivity]. apply At. eapply (wf_addr _ W); eauto.
      * intros b E. assert (b < length (h_lists H)) by (eapply (wf_addr _ W); eauto). lia.
Qed.
Lemma either_fine : forall x f old new, (forall nd, repr x nd old -> repr x nd new) -> either f old new -> fine x f.
Proof.
  intros x f old new R [A|A] c; rewrite A; [left; reflexivity | apply (subst_fine x old new R)].
Qed.
Lemma either_in : forall f old new l c, either f old new -> In c (map f l) -> c = new \/ In c l.
Proof.
  intros f old new l c E I. destruct (map_either _ _ _ l E) as [Q|Q]; rewrite Q in I; auto. eapply subst_in; eauto.
Qed.
Lemma replace_spec : forall s old new (H : heap K) hn, wf H -> par H old -> node_at H new = Some hn ->
  (forall nd, repr (s, H) nd old -> repr (s, H) nd new) ->
  exists H', replace old new H = Some H' /\ keeps (s, H) (s, H') /\ wf H' /\
    (exists h, node_at H' new = Some h /\ h_op h = h_op hn).
Proof.
  intros s old new H hn W (h & p & N & P) Nn R. unfold replace. rewrite N, P.
  destruct (rcw_spec p old new H W) as (LL & Ls & Ls2 & LN & Nd).
  set (H1 := replace_child_with p old new H) in *.
  pose proof (same_set_parent p H1 new) as Sm. pose proof Sm as (L1 & M1 & F1).
  assert (Pn : par (set_parent p H1 new) new).
  { destruct (Nd _ _ Nn) as (h' & f & g & N' & _). exists (HNode (h_op h') (h_kids h') (h_list h') (Some p)), p.
    rewrite node_set_parent, Nat.eqb_refl, N'. auto. }
  set (H2 := set_parent p H1 new) in *.
  assert (PH : forall c, par H c -> par H2 c).
  { intros c (hc & q & Nc & Q). destruct (Nd _ _ Nc) as (h' & f & g & N' & _ & P' & _).
    apply (same_par _ _ _ Sm). exists h', q. split; congruence. }
  assert (Bk : forall i h2, node_at H2 i = Some h2 -> exists h0, node_at H i = Some h0).
  { intros i h2 N2. destruct (same_node _ _ _ _ Sm N2) as (h1 & N1 & _).
    destruct (node_at H i) as [h0|] eqn:E; eauto. apply nth_error_None in E. rewrite <- LN in E.
    apply nth_error_None in E. unfold node_at in N1. congruence. }
  assert (EL : forall h1 h2, h_list h1 = h_list h2 -> elems H2 h2 = elems H1 h1).
  { intros h1 h2 E. unfold elems, list_at. rewrite L1, E. reflexivity. }
  exists H2. split; [reflexivity|split; [|split]].
  - constructor; cbn [fst snd].
    + intros g; auto.
    + intros i h0 N0. destruct (Nd _ _ N0) as (h1 & f & g & N1 & O1 & P1 & Ef & Eg & K1 & E1 & _).
      destruct (F1 _ _ N1) as (q & N2 & Q). eexists _, f, g. split; [exact N2|]. cbn [h_op h_kids h_parent].
      repeat split; auto; try (eapply either_fine; eauto).
      * rewrite <- E1. apply EL. reflexivity.
      * intros p0 E. rewrite <- P1 in E. exact (Q _ E).
    + intros a I. rewrite L1. split; [lia|]. destruct (Ls a I) as (f & Ef & E). exists f.
      split; [unfold list_at; rewrite L1; exact E | eapply either_fine; eauto].
  - constructor.
    + intros i h2 c N2 O I. destruct (Bk _ _ N2) as (h0 & N0). destruct (Nd _ _ N0) as (h1 & f & g & N1 & O1 & P1 & Ef & Eg & K1 & E1 & _).
      destruct (F1 _ _ N1) as (q & N2' & Q). rewrite N2 in N2'. injection N2' as ->. cbn [h_op h_kids] in *.
      rewrite K1 in I. destruct (either_in _ _ _ _ _ Ef I) as [->|I']; auto.
      apply PH. eapply (wf_kids _ W); [exact N0 | congruence | exact I'].
    + intros a c I. unfold list_at in I. rewrite L1 in I. fold (list_at H1 a) in I.
      destruct (Ls2 a) as [J|(b & [E|E])].
      * destruct (Ls a J) as (f & Ef & E). rewrite E in I. destruct (either_in _ _ _ _ _ Ef I) as [->|I']; auto.
        apply PH. exact (wf_list _ W a c I').
      * rewrite E in I. destruct (subst_in _ _ _ _ I) as [->|I']; auto. apply PH. exact (wf_list _ W b c I').
      * rewrite E in I. contradiction.
    + intros i h2 a N2 O. destruct (Bk _ _ N2) as (h0 & N0). destruct (Nd _ _ N0) as (h1 & f & g & N1 & _ & _ & _ & _ & _ & _ & A).
      destruct (F1 _ _ N1) as (q & N2' & Q). rewrite N2 in N2'. injection N2' as ->. cbn [h_list] in O. rewrite L1. exact (A _ O).
  - destruct (Nd _ _ Nn) as (h1 & f & g & N1 & O1 & _). destruct (F1 _ _ N1) as (q & N2 & _). eexists; split; [exact N2|]. exact O1.
Qed.
End Rw.
