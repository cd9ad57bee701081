From Coq Require Import ZArith Bool String List Lia Floats.SpecFloat.
From Verif Require Import Base NumModel ArrModel ArrSpec ArrProofs LkpModel LkpSpec.
Import ListNotations.
Open Scope nat_scope.
Open Scope list_scope.

(** * Dictionaries *)
Lemma dget_dset d s m s' : dget (dset d s m) s' = if String.eqb s s' then Some m else dget d s'.
Proof.
  induction d as [|[k v] d IH]; simpl; auto.
  destruct (String.eqb_spec k s); subst; simpl.
  - destruct (String.eqb_spec s s'); auto.
  - rewrite IH. destruct (String.eqb_spec k s'); auto. subst.
    destruct (String.eqb_spec s s'); congruence.
Qed.

Lemma dget_app a b s : dget (a ++ b) s = match dget a s with Some m => Some m | None => dget b s end.
Proof. induction a as [|[k v] a IH]; simpl; auto. destruct (String.eqb k s); auto. Qed.

Lemma dset_absent d s m : dget d s = None -> dset d s m = d ++ [(s, m)].
Proof.
  induction d as [|[k v] d IH]; simpl; auto. destruct (String.eqb k s); [discriminate|].
  intros. rewrite IH; auto.
Qed.

Lemma dget_in d s m : dget d s = Some m -> In (s, m) d.
Proof.
  induction d as [|[k v] d IH]; simpl; [discriminate|].
  destruct (String.eqb_spec k s); auto. intros [= ->]. subst; auto.
Qed.

Lemma defined_app a b s : defined (a ++ b) s = match defined b s with Some m => Some m | None => defined a s end.
Proof.
  induction a as [|[k v] a IH]; simpl.
  - destruct (defined b s); auto.
  - rewrite IH. destruct (defined b s); auto.
Qed.

Definition dfold (d : dict) (ms : list (string * nat)) : dict :=
  fold_left (fun d p => dset d (fst p) (snd p)) ms d.

Lemma dget_dfold ms : forall d s, dget (dfold d ms) s =
  match defined ms s with Some m => Some m | None => dget d s end.
Proof.
  induction ms as [|[k v] ms IH]; intros; simpl; auto.
  unfold dfold in *. rewrite IH. destruct (defined ms s); auto. simpl. rewrite dget_dset.
  destruct (String.eqb k s); auto.
Qed.

Lemma dget_dict_of ms s : dget (dict_of ms) s = defined ms s.
Proof. unfold dict_of. change (dget (dfold [] ms) s = defined ms s). rewrite dget_dfold. destruct (defined ms s); auto. Qed.

Definition entries (t : option dict) : dict := match t with Some d => d | None => [] end.
Lemma table_get_entries t s : table_get t s = dget (entries t) s.
Proof. destruct t; auto. Qed.

Lemma load_entries ms prims :
  entries (fold_left add_primitive prims (set_instance_invokables ms)) = dict_of (ms ++ prims).
Proof.
  assert (G : forall prims t, entries (fold_left add_primitive prims t) = dfold (entries t) prims).
  { induction prims0 as [|[k v] p IH]; intros; simpl; auto. rewrite IH. reflexivity. }
  rewrite G. unfold dict_of, dfold. rewrite fold_left_app. f_equal.
  unfold set_instance_invokables, dict_of.
  set (x := fold_left _ ms _). destruct x; reflexivity.
Qed.

(** * Lookup in the specification *)
Lemma finds_det cs c s m : finds cs c s m -> forall m', finds cs c s m' -> m = m'.
Proof.
  induction 1; intros m' F; inversion F; subst; try congruence.
  apply IHfinds. congruence.
Qed.
Lemma finds_lacks cs c s m : finds cs c s m -> lacks cs c s -> False.
Proof.
  induction 1; intros L; inversion L; subst; congruence.
Qed.
Lemma nth_app_some {A} (l l' : list A) i x : nth_error l i = Some x -> nth_error (l ++ l') i = Some x.
Proof. intros. rewrite nth_error_app1; auto. apply nth_error_Some. congruence. Qed.
Lemma finds_app cs cs' c s m : finds cs c s m -> finds (cs ++ cs') c s m.
Proof.
  induction 1.
  - eapply finds_here; eauto using nth_app_some.
  - eapply finds_up; eauto using nth_app_some.
Qed.
Lemma lacks_app cs cs' c s : lacks cs c s -> lacks (cs ++ cs') c s.
Proof.
  induction 1.
  - eapply lacks_root; eauto using nth_app_some.
  - eapply lacks_up; eauto using nth_app_some.
Qed.

Definition acyclic (cs : list cdef) : Prop :=
  forall c d p, nth_error cs c = Some d -> d_super d = Some p -> p < c.
Lemma finds_or_lacks cs c s : acyclic cs -> c < length cs ->
  (exists m, finds cs c s m) \/ lacks cs c s.
Proof.
  intros A. induction c as [c IH] using lt_wf_ind. intros Hc.
  destruct (nth_error cs c) as [d|] eqn:E; [|apply nth_error_None in E; lia].
  destruct (defined (d_methods d) s) as [m|] eqn:D.
  - left. exists m. eapply finds_here; eauto.
  - destruct (d_super d) as [p|] eqn:P.
    + specialize (A _ _ _ E P). destruct (IH p ltac:(lia) ltac:(lia)) as [[m F]|L].
      * left; exists m; eapply finds_up; eauto.
      * right; eapply lacks_up; eauto.
    + right; eapply lacks_root; eauto.
Qed.

(** * Tables: own methods, then cached inherited ones *)
Definition table_ok (cs : list cdef) (c : nat) (d : cdef) (t : option dict) : Prop :=
  exists ext, entries t = dict_of (d_methods d) ++ ext
    /\ (forall k m, In (k, m) ext -> defined (d_methods d) k = None /\ finds cs c k m)
    /\ NoDup (map fst ext).
Definition hok (cs : list cdef) (H : heap) : Prop :=
  acyclic cs /\ length H = length cs /\
  forall c k, nth_error H c = Some k -> exists d, nth_error cs c = Some d
    /\ k_super k = d_super d /\ table_ok cs c d (k_table k).

Lemma table_ok_get cs c d t s : nth_error cs c = Some d -> table_ok cs c d t ->
  match table_get t s with
  | Some m => finds cs c s m
  | None => defined (d_methods d) s = None
  end.
Proof.
  intros Hd (ext & E & X & _). rewrite table_get_entries, E, dget_app, dget_dict_of.
  destruct (defined (d_methods d) s) eqn:D.
  - eapply finds_here; eauto.
  - destruct (dget ext s) eqn:G; auto. apply dget_in in G. apply X in G. tauto.
Qed.

Lemma table_ok_put cs c d t s m : table_ok cs c d t -> table_get t s = None ->
  defined (d_methods d) s = None -> finds cs c s m -> table_ok cs c d (table_put t s m).
Proof.
  intros (ext & E & X & N) G D F. exists (ext ++ [(s, m)]).
  rewrite table_get_entries in G. unfold table_put. simpl.
  split; [|split].
  - change (match t with Some d => d | None => [] end) with (entries t).
    rewrite dset_absent, E, app_assoc by auto. auto.
  - intros k m' I. apply in_app_iff in I. destruct I as [I|[[= <- <-]|[]]]; auto.
  - rewrite map_app. cbn [map fst].
    apply NoDup_rev in N. rewrite <- (rev_involutive (map fst ext ++ [s])). apply NoDup_rev.
    rewrite rev_app_distr. simpl. constructor; auto.
    rewrite <- in_rev. intros I. rewrite E, dget_app in G.
    destruct (dget (dict_of (d_methods d)) s); [discriminate|].
    clear -I G. induction ext as [|[k v] e IH]; simpl in *; auto.
    destruct (String.eqb_spec k s); [discriminate|]. destruct I; auto.
Qed.

(** The lookup finds the nearest definition, keeps the tables right, and changes no
    table of a class other than the receiver's class and its superclasses. *)
Lemma lookup_ok cs f : forall H c s, hok cs H -> c < f -> c < length cs ->
  exists r H', lookup_invokable f H c s = Ok (r, H') /\ hok cs H'
    /\ (forall j, c < j -> nth_error H' j = nth_error H j)
    /\ match r with Some m => finds cs c s m | None => lacks cs c s /\ H' = H end.
Proof.
  induction f; intros H c s K Hf Hc; [lia|].
  assert (K0 := K). destruct K as (A & L & T). cbn [lookup_invokable].
  destruct (nth_error H c) as [k|] eqn:E; [|apply nth_error_None in E; lia].
  destruct (T _ _ E) as (d & Hd & Sd & Td).
  pose proof (table_ok_get cs c d (k_table k) s Hd Td) as G.
  destruct (table_get (k_table k) s) as [m|] eqn:GT.
  - exists (Some m), H. auto.
  - rewrite Sd. destruct (d_super d) as [p|] eqn:P.
    + assert (p < c) by (eapply A; eauto).
      destruct (IHf H p s K0 ltac:(lia) ltac:(lia)) as (r & H' & R & K' & Same & M).
      rewrite R. unfold bind. cbn [fst snd]. destruct r as [m|].
      * assert (E' : nth_error H' c = Some k) by (rewrite Same; auto).
        rewrite E'. unfold put_table. rewrite E'.
        assert (F : finds cs c s m) by (eapply finds_up; eauto).
        exists (Some m). eexists. split; [reflexivity|]. split; [|split; [|exact F]].
        2: { intros j J. rewrite nth_upd_other by lia. apply Same; lia. }
        destruct K' as (_ & L' & T'). split; [exact A|]. split; [rewrite upd_length; auto|].
        intros c0 k0 N0. rewrite nth_error_upd in N0. destruct (Nat.eqb_spec c c0).
        -- destruct (Nat.ltb c (length H')); [|discriminate]. injection N0 as <-. subst c0.
           exists d. cbn [k_super k_table]. split; [auto|split; [congruence|]]. apply table_ok_put; auto.
        -- apply T'; auto.
      * destruct M as [M ->]. exists None, H. split; [auto|split; [auto|split; [auto|]]].
        split; auto. eapply lacks_up; eauto.
    + exists None, H. split; [auto|split; [auto|split; [auto|]]].
      split; auto. eapply lacks_root; eauto.
Qed.

Lemma hok_load cs H sup ms prims : hok cs H ->
  (forall p, sup = Some p -> p < length cs) ->
  hok (cs ++ [{| d_super := sup; d_methods := ms ++ prims |}]) (load_class H sup ms prims).
Proof.
  intros (A & L & T) V. unfold load_class. split; [|split].
  - intros c d p N P. destruct (Nat.lt_ge_cases c (length cs)).
    + rewrite nth_error_app1 in N by auto. eapply A; eauto.
    + rewrite nth_error_app2 in N by auto. destruct (c - length cs) as [|n] eqn:Q.
      * simpl in N. injection N as <-. simpl in P. apply V in P. lia.
      * destruct n; discriminate.
  - rewrite !app_length, L. auto.
  - intros c k N. destruct (Nat.lt_ge_cases c (length H)).
    + rewrite nth_error_app1 in N by auto. destruct (T _ _ N) as (d & Hd & Sd & ext & E & X & ND).
      exists d. split; [apply nth_app_some; auto|split; [auto|]].
      exists ext. split; [auto|split; [|auto]]. intros k' m I. destruct (X _ _ I).
      split; auto. apply finds_app; auto.
    + rewrite nth_error_app2 in N by auto. destruct (c - length H) as [|n] eqn:Q.
      * simpl in N. injection N as <-. eexists.
        split; [rewrite nth_error_app2 by lia; replace (c - length cs) with 0 by lia; reflexivity|].
        split; [reflexivity|]. exists []. cbn [k_table]. rewrite load_entries, app_nil_r.
        split; [auto|split; [intros ? ? []|constructor]].
      * destruct n; discriminate.
Qed.

(** * The world seen by call sites *)
Definition wok (cs : list cdef) (os : list nat) (w : lworld) : Prop :=
  hok cs (lw_heap w)
  /\ length (lw_cur w) = length cs
  /\ (forall c l, nth_error (lw_cur w) c = Some l -> nth_error (lw_lays w) l = Some (c, true))
  /\ (forall l c, nth_error (lw_lays w) l = Some (c, true) -> nth_error (lw_cur w) c = Some l)
  /\ (forall l c b, nth_error (lw_lays w) l = Some (c, b) -> c < length cs)
  /\ length (lw_objs w) = length os
  /\ (forall o l, nth_error (lw_objs w) o = Some l ->
        exists c b, nth_error os o = Some c /\ nth_error (lw_lays w) l = Some (c, b)).

Lemma wok_heap cs os w H : wok cs os w -> hok cs H -> wok cs os (set_heap w H).
Proof. intros (_ & R) K. split; [exact K|exact R]. Qed.

Lemma wok_obj cs os w o c : wok cs os w -> nth_error os o = Some c ->
  exists l b, nth_error (lw_objs w) o = Some l /\ nth_error (lw_lays w) l = Some (c, b) /\ c < length cs.
Proof.
  intros (_ & _ & _ & _ & Lc & Lo & O) N.
  destruct (nth_error (lw_objs w) o) as [l|] eqn:E.
  - destruct (O _ _ E) as (c' & b & N' & B). exists l, b. split; auto.
    assert (c' = c) by congruence. subst. split; auto. eapply Lc; eauto.
  - apply nth_error_None in E. assert (o < length os) by (apply nth_error_Some; congruence). lia.
Qed.

Lemma layout_lookup_ok cs os w l c b s : wok cs os w -> nth_error (lw_lays w) l = Some (c, b) ->
  exists r H', layout_lookup w l s = Ok (r, set_heap w H') /\ wok cs os (set_heap w H')
    /\ match r with Some m => finds cs c s m | None => lacks cs c s end.
Proof.
  intros W N. assert (W0 := W). destruct W as (K & _ & _ & _ & Lc & _).
  unfold layout_lookup, for_class. rewrite N. unfold bind at 1. cbn [fst].
  assert (c < length cs) by (eapply Lc; eauto).
  destruct K as (A & L & T).
  destruct (lookup_ok cs (fuel_of (lw_heap w)) (lw_heap w) c s) as (r & H' & R & K' & _ & M);
    [split; auto|unfold fuel_of; lia|auto|].
  rewrite R. exists r, H'. cbn [bind fst snd]. split; [auto|split].
  - eapply wok_heap; eauto.
  - destruct r; tauto.
Qed.

(** * Dispatch nodes *)
Definition target_ok (cs : list cdef) (c : nat) (s : string) (t : target) : Prop :=
  match t with
  | TMethod m => finds cs c s m
  | TDnu (Some d) => lacks cs c s /\ finds cs c dnu d
  | TDnu None => lacks cs c s /\ lacks cs c dnu
  | TGeneric => True
  end.
Definition node_ok (cs : list cdef) (w : lworld) (s : string) (n : node) : Prop :=
  exists l c b, n_layout n = Some l /\ nth_error (lw_lays w) l = Some (c, b)
    /\ target_ok cs c s (n_target n) /\ n_target n <> TGeneric.
Definition generic : node := {| n_layout := None; n_target := TGeneric |}.
Definition site_ok (cs : list cdef) (w : lworld) (s : string) (c : chain) : Prop :=
  c = [generic] \/ Forall (node_ok cs w s) c.

(** The answer of a send is right: the specified outcome, or a failure because not even
    doesNotUnderstand:arguments: is understood. *)
Definition right_answer {A} (cs : list cdef) (c : nat) (s : string) (r : res (outcome * A)) : Prop :=
  (exists out x, r = Ok (out, x) /\ sends cs c s out)
  \/ (r = Err AttributeError /\ lacks cs c s /\ lacks cs c dnu).

Lemma dispatch_ok cs os w t s o c : wok cs os w -> nth_error os o = Some c ->
  target_ok cs c s t ->
  (exists out H', dispatch w t s o = Ok (out, set_heap w H')
      /\ wok cs os (set_heap w H') /\ sends cs c s out)
  \/ (dispatch w t s o = Err AttributeError /\ lacks cs c s /\ lacks cs c dnu).
Proof.
  intros W N T.
  assert (Hid : w = set_heap w (lw_heap w)) by (destruct w; reflexivity).
  destruct t as [m|[d|]|]; cbn [dispatch].
  - left. exists (Runs m), (lw_heap w). rewrite <- Hid. split; [auto|split; [auto|]]. constructor; auto.
  - left. exists (RunsDnu d), (lw_heap w). rewrite <- Hid. split; [auto|split; [auto|]].
    destruct T. constructor; auto.
  - right. destruct T. split; auto.
  - destruct (wok_obj _ _ _ _ _ W N) as (l & b & Ol & Ll & _).
    unfold obj_layout. rewrite Ol. cbn [bind].
    destruct (layout_lookup_ok _ _ _ _ _ _ s W Ll) as (r & H' & R & W' & M).
    rewrite R. cbn [bind fst snd]. destruct r as [m|].
    + left. exists (Runs m), H'. split; [auto|split; [auto|]]. constructor; auto.
    + destruct (layout_lookup_ok _ _ _ _ _ _ dnu W' Ll) as (r' & H'' & R' & W'' & M').
      rewrite R'. cbn [bind fst snd]. destruct r' as [d|]; cbn [invoke bind].
      * left. exists (RunsDnu d), H''. split; [auto|split; [auto|]]. constructor; auto.
      * right. auto.
Qed.

Lemma find_node_some c l n : find_node c l = Some n -> In n c /\ n_layout n = Some l.
Proof.
  induction c as [|x c IH]; simpl; [discriminate|].
  destruct (n_layout x) as [y|] eqn:E.
  - destruct (Nat.eqb_spec y l).
    + intros [= <-]. subst; auto.
    + intros H. apply IH in H. tauto.
  - intros H. apply IH in H. tauto.
Qed.

(** What the cache answers for a receiver's layout is right for the receiver's class. *)
Lemma node_lookup_ok cs w s ch l c b n : site_ok cs w s ch ->
  nth_error (lw_lays w) l = Some (c, b) -> node_lookup ch l = Some n ->
  target_ok cs c s (n_target n).
Proof.
  intros [->|F] N E.
  - simpl in E. injection E as <-. exact I.
  - unfold node_lookup in E. destruct (find_node ch l) as [x|] eqn:Fn.
    + injection E as <-. apply find_node_some in Fn. destruct Fn as [I L].
      rewrite Forall_forall in F. destruct (F _ I) as (l' & c' & b' & L' & N' & T & _).
      assert (l' = l) by congruence. subst. assert (c' = c) by congruence. subst. auto.
    + destruct ch as [|x t]; [discriminate|]. inversion F as [|? ? X]; subst.
      destruct X as (l' & c' & b' & L' & _). rewrite L' in E. discriminate.
Qed.

Lemma node_lookup_none cs w s ch l : site_ok cs w s ch -> node_lookup ch l = None ->
  Forall (node_ok cs w s) ch.
Proof. intros [->|F] E; [discriminate|auto]. Qed.

Lemma drop_ok cs w s ch : Forall (node_ok cs w s) ch ->
  exists ch', drop_old_entries w ch = Ok (ch', length ch') /\ Forall (node_ok cs w s) ch'
    /\ length ch' <= length ch.
Proof.
  induction 1 as [|n t (l & c & b & L & N & R) F (ch' & D & F' & Le)].
  - exists []. auto.
  - cbn [drop_old_entries]. rewrite L. unfold is_latest. rewrite N. unfold bind. rewrite D.
    cbn [snd fst]. destruct b.
    + exists (n :: ch'). split; [reflexivity|]. split; [constructor; auto; exists l, c, true; auto|simpl; lia].
    + exists ch'. split; [reflexivity|]. split; [auto|simpl; lia].
Qed.

(** * Steps that change layouts *)
(** Layouts are only appended, and only lose "latest". *)
Definition lays_grow (w w' : lworld) : Prop :=
  forall l c b, nth_error (lw_lays w) l = Some (c, b) -> exists b', nth_error (lw_lays w') l = Some (c, b').

Lemma node_ok_mono cs cs' w w' s n : node_ok cs w s n -> lays_grow w w' -> node_ok (cs ++ cs') w' s n.
Proof.
  intros (l & c & b & L & N & T & G) Gr. destruct (Gr _ _ _ N) as (b' & N').
  exists l, c, b'. split; [auto|split; [auto|split; [|auto]]].
  destruct (n_target n) as [m|[d|]|]; simpl in *; intuition auto using finds_app, lacks_app.
Qed.
Lemma site_ok_mono cs cs' w w' s ch : site_ok cs w s ch -> lays_grow w w' -> site_ok (cs ++ cs') w' s ch.
Proof.
  intros [->|F] G; [left; auto|right]. eapply Forall_impl; [|exact F].
  intros n Hn. eapply node_ok_mono; eauto.
Qed.
Lemma site_ok_same cs w w' s ch : site_ok cs w s ch -> lw_lays w' = lw_lays w -> site_ok cs w' s ch.
Proof.
  intros. rewrite <- (app_nil_r cs). eapply site_ok_mono; eauto. intros l c b N. rewrite H0; eauto.
Qed.
Lemma Forall_same cs w w' s ch : Forall (node_ok cs w s) ch -> lw_lays w' = lw_lays w ->
  Forall (node_ok cs w' s) ch.
Proof.
  intros F E. eapply Forall_impl; [|exact F]. intros n Hn.
  rewrite <- (app_nil_r cs). eapply node_ok_mono; eauto. intros l c b N. rewrite E; eauto.
Qed.

Lemma update_layout_ok cs os w o c : wok cs os w -> nth_error os o = Some c ->
  exists w' l', update_layout w o = Ok w' /\ wok cs os w' /\ lw_lays w' = lw_lays w
    /\ lw_heap w' = lw_heap w /\ lw_objs w' = upd (lw_objs w) o l'
    /\ nth_error (lw_objs w') o = Some l' /\ nth_error (lw_lays w') l' = Some (c, true)
    /\ nth_error (lw_cur w) c = Some l'.
Proof.
  intros W N. destruct (wok_obj _ _ _ _ _ W N) as (l & b & Ol & Ll & Hc).
  destruct W as (K & Lcur & C1 & C2 & Lc & Lo & O).
  unfold update_layout, obj_layout. rewrite Ol. unfold bind, for_class. rewrite Ll. cbn [fst].
  destruct (nth_error (lw_cur w) c) as [l'|] eqn:E; [|apply nth_error_None in E; lia].
  eexists. exists l'. split; [reflexivity|]. cbn [lw_lays lw_heap lw_objs lw_cur].
  assert (o < length (lw_objs w)) by (apply nth_error_Some; congruence).
  split; [|split; [auto|split; [auto|split; [auto|split; [apply nth_upd_same; auto|split; [auto|auto]]]]]].
  split; [exact K|split; [auto|split; [exact C1|split; [exact C2|split; [exact Lc|split]]]]]; cbn.
  - rewrite upd_length; auto.
  - intros o0 l0 N0. rewrite nth_error_upd in N0. destruct (Nat.eqb_spec o o0).
    + destruct (Nat.ltb o (length (lw_objs w))); [|discriminate]. injection N0 as <-. subst.
      exists c, true. auto.
    + auto.
Qed.

Lemma new_layout_ok cs os w o c : wok cs os w -> nth_error os o = Some c ->
  exists w' old, new_layout w o = Ok w' /\ wok cs os w' /\ lays_grow w w'
    /\ nth_error (lw_cur w) c = Some old
    /\ lw_lays w' = upd (lw_lays w) old (c, false) ++ [(c, true)]
    /\ lw_objs w' = upd (lw_objs w) o (length (lw_lays w)).
Proof.
  intros W N. destruct (wok_obj _ _ _ _ _ W N) as (l & b & Ol & Ll & Hc).
  destruct W as (K & Lcur & C1 & C2 & Lc & Lo & O).
  unfold new_layout, obj_layout. rewrite Ol. unfold bind, for_class. rewrite Ll. cbn [fst].
  destruct (nth_error (lw_cur w) c) as [old|] eqn:E; [|apply nth_error_None in E; lia].
  eexists. exists old. split; [reflexivity|]. cbn [lw_lays lw_heap lw_objs lw_cur].
  assert (Hold := C1 _ _ E).
  assert (Hlt : old < length (lw_lays w)) by (apply nth_error_Some; congruence).
  assert (G : forall l0 c0 b0, nth_error (upd (lw_lays w) old (c, false) ++ [(c, true)]) l0 = Some (c0, b0) ->
     (l0 = length (lw_lays w) /\ c0 = c /\ b0 = true)
     \/ (l0 = old /\ c0 = c /\ b0 = false)
     \/ (l0 < length (lw_lays w) /\ l0 <> old /\ nth_error (lw_lays w) l0 = Some (c0, b0))).
  { intros l0 c0 b0 N0. destruct (Nat.lt_ge_cases l0 (length (lw_lays w))).
    - rewrite nth_error_app1 in N0 by (rewrite upd_length; auto).
      rewrite nth_error_upd in N0. destruct (Nat.eqb_spec old l0).
      + destruct (Nat.ltb old _); [|discriminate]. injection N0 as <- <-. auto.
      + auto.
    - rewrite nth_error_app2 in N0 by (rewrite upd_length; auto).
      rewrite upd_length in N0. destruct (l0 - length (lw_lays w)) as [|n] eqn:Q.
      + injection N0 as <- <-. left. split; [lia|auto].
      + destruct n; discriminate. }
  assert (GN : nth_error (upd (lw_lays w) old (c, false) ++ [(c, true)]) (length (lw_lays w)) = Some (c, true)).
  { rewrite nth_error_app2 by (rewrite upd_length; auto). rewrite upd_length, Nat.sub_diag. auto. }
  assert (GO : forall l0 c0 b0, nth_error (lw_lays w) l0 = Some (c0, b0) ->
     exists b', nth_error (upd (lw_lays w) old (c, false) ++ [(c, true)]) l0 = Some (c0, b')).
  { intros l0 c0 b0 N0. assert (l0 < length (lw_lays w)) by (apply nth_error_Some; congruence).
    rewrite nth_error_app1 by (rewrite upd_length; auto). rewrite nth_error_upd.
    destruct (Nat.eqb_spec old l0); eauto. subst. rewrite N0 in Hold. injection Hold as -> ->.
    apply Nat.ltb_lt in H. rewrite H. eauto. }
  split; [|split; [|split; [auto|split; auto]]].
  - split; [exact K|split]; cbn.
    { rewrite upd_length; auto. }
    split; [|split; [|split; [|split]]].
    + intros c0 l0 N0. rewrite nth_error_upd in N0. destruct (Nat.eqb_spec c c0).
      * destruct (Nat.ltb c _); [|discriminate]. injection N0 as <-. subst. auto.
      * assert (Nl := C1 _ _ N0). assert (l0 < length (lw_lays w)) by (apply nth_error_Some; congruence).
        rewrite nth_error_app1 by (rewrite upd_length; auto).
        rewrite nth_upd_other; auto. intros ->. congruence.
    + intros l0 c0 N0. apply G in N0. rewrite nth_error_upd.
      destruct N0 as [(-> & -> & _)|[(_ & _ & ?)|(Hl & Ho & Hn)]]; [|discriminate|].
      * rewrite Nat.eqb_refl. assert (E2 : c < length (lw_cur w)) by lia.
        apply Nat.ltb_lt in E2. rewrite E2. auto.
      * destruct (Nat.eqb_spec c c0); [|apply C2; auto]. subst. apply C2 in Hn. congruence.
    + intros l0 c0 b0 N0. apply G in N0. destruct N0 as [(_ & -> & _)|[(_ & -> & _)|(_ & _ & Hn)]]; auto.
      eapply Lc; eauto.
    + rewrite upd_length; auto.
    + intros o0 l0 N0. rewrite nth_error_upd in N0. destruct (Nat.eqb_spec o o0).
      * destruct (Nat.ltb o _); [|discriminate]. injection N0 as <-. subst. exists c, true. auto.
      * destruct (O _ _ N0) as (c0 & b0 & X & Y). destruct (GO _ _ _ Y) as (b' & Z). eauto.
  - intros l0 c0 b0 N0. eauto.
Qed.

Lemma new_instance_ok cs os w c : wok cs os w -> c < length cs ->
  exists w' l, new_instance w c = Ok w' /\ wok cs (os ++ [c]) w' /\ lw_lays w' = lw_lays w
    /\ lw_objs w' = lw_objs w ++ [l] /\ nth_error (lw_lays w) l = Some (c, true)
    /\ nth_error (lw_cur w) c = Some l /\ lw_heap w' = lw_heap w /\ lw_cur w' = lw_cur w.
Proof.
  intros (K & Lcur & C1 & C2 & Lc & Lo & O) Hc. unfold new_instance.
  destruct (nth_error (lw_cur w) c) as [l|] eqn:E; [|apply nth_error_None in E; lia].
  eexists. exists l. split; [reflexivity|]. cbn.
  split; [|split; [auto|split; [auto|split; [apply C1; auto|split; auto]]]].
  split; [exact K|split; [auto|split; [exact C1|split; [exact C2|split; [exact Lc|split]]]]]; cbn.
  - rewrite !app_length, Lo; auto.
  - intros o0 l0 N0. apply nth_error_app_last in N0. destruct N0 as [[H2 H1]|[H1 H2]].
    + destruct (O _ _ H2) as (c0 & b0 & X & Y). exists c0, b0. split; auto. apply nth_app_some; auto.
    + exists c, true. subst. rewrite nth_error_app2 by lia.
      rewrite Lo, Nat.sub_diag. split; auto.
Qed.

Lemma load_ok cs os w sup ms prims : wok cs os w -> (forall p, sup = Some p -> p < length cs) ->
  wok (cs ++ [{| d_super := sup; d_methods := ms ++ prims |}]) os (load_class_w w sup ms prims)
  /\ lays_grow w (load_class_w w sup ms prims).
Proof.
  intros (K & Lcur & C1 & C2 & Lc & Lo & O) V. assert (LH : length (lw_heap w) = length cs) by apply K.
  unfold load_class_w. split; cbn.
  - split; [apply hok_load; auto|]. cbn. split; [rewrite !app_length; simpl; lia|].
    split; [|split; [|split; [|split]]].
    + intros c l N. apply nth_error_app_last in N. destruct N as [[H2 H1]|[H1 H2]].
      * apply nth_app_some; auto.
      * subst. rewrite nth_error_app2, Nat.sub_diag by auto. cbn. rewrite LH, Lcur; auto.
    + intros l c N. apply nth_error_app_last in N. destruct N as [[H2 H1]|[H1 H2]].
      * apply nth_app_some; auto.
      * injection H2 as H2. subst. rewrite nth_error_app2 by lia. rewrite LH, Lcur, Nat.sub_diag. auto.
    + intros l c b N. rewrite app_length. cbn. apply nth_error_app_last in N. destruct N as [[H2 H1]|[H1 H2]].
      * apply Lc in H2. lia.
      * injection H2 as H2 _. lia.
    + auto.
    + intros o l N. destruct (O _ _ N) as (c & b & X & Y). exists c, b. split; auto. apply nth_app_some; auto.
  - intros l c b N. exists b. cbn. apply nth_app_some; auto.
Qed.

(** * Sends by the AST interpreter *)
Lemma ast_send_ok cs os w s ch o c : wok cs os w -> site_ok cs w s ch -> length ch <= 6 ->
  nth_error os o = Some c ->
  (exists out ch' w', ast_send w ch s o = Ok (out, ch', w') /\ wok cs os w' /\ site_ok cs w' s ch'
      /\ length ch' <= 6 /\ sends cs c s out)
  \/ (ast_send w ch s o = Err AttributeError /\ lacks cs c s /\ lacks cs c dnu).
Proof.
  intros W St Len N. destruct (wok_obj _ _ _ _ _ W N) as (l & b & Ol & Ll & _).
  assert (Fin : forall n ch' w1, wok cs os w1 -> site_ok cs w1 s ch' -> length ch' <= 6 ->
     target_ok cs c s (n_target n) ->
     (exists out ch2 w', (r <- dispatch w1 (n_target n) s o ;; Ok (fst r, ch', snd r)) = Ok (out, ch2, w')
        /\ wok cs os w' /\ site_ok cs w' s ch2 /\ length ch2 <= 6 /\ sends cs c s out)
     \/ ((r <- dispatch w1 (n_target n) s o ;; Ok (fst r, ch', snd r)) = Err AttributeError
         /\ lacks cs c s /\ lacks cs c dnu)).
  { intros n ch' w1 W1 S1 L1 T1. destruct (dispatch_ok _ _ _ _ _ _ _ W1 N T1) as [(out & H' & D & W' & Sd)|(D & La)].
    - left. rewrite D. cbn [bind fst snd]. exists out, ch', (set_heap w1 H').
      split; [auto|split; [auto|split; [|split; auto]]]. eapply site_ok_same; eauto.
    - right. rewrite D. auto. }
  unfold ast_send, obj_layout. rewrite Ol. cbn [bind].
  destruct (node_lookup ch l) as [n|] eqn:Nl.
  { cbn [bind fst snd]. apply Fin; auto. eapply node_lookup_ok; eauto. }
  pose proof (node_lookup_none _ _ _ _ _ St Nl) as F0.
  (* adding an entry for layout l1 in state w1 *)
  assert (Add : forall w1 l1 b1, wok cs os w1 -> lw_lays w1 = lw_lays w ->
     nth_error (lw_lays w1) l1 = Some (c, b1) ->
     exists n ch' w2, (r <- drop_old_entries w1 ch ;;
      (if Nat.ltb (snd r) INLINE_CACHE_SIZE then
        q <- layout_lookup w1 l1 s ;;
        match fst q with
        | Some m => let n := {| n_layout := Some l1; n_target := TMethod m |} in
                    Ok (n, n :: fst r, snd q)
        | None => d <- layout_lookup (snd q) l1 dnu ;;
                  let n := {| n_layout := Some l1; n_target := TDnu (fst d) |} in
                  Ok (n, n :: fst r, snd d)
        end
       else let g := {| n_layout := None; n_target := TGeneric |} in Ok (g, [g], w1))) = Ok (n, ch', w2)
      /\ wok cs os w2 /\ site_ok cs w2 s ch' /\ length ch' <= 6 /\ target_ok cs c s (n_target n)).
  { intros w1 l1 b1 W1 E1 N1. pose proof (Forall_same _ _ w1 _ _ F0 E1) as F1.
    destruct (drop_ok _ _ _ _ F1) as (ch1 & D & F2 & Le). rewrite D. cbn [bind fst snd].
    unfold INLINE_CACHE_SIZE. destruct (Nat.ltb_spec (length ch1) 6) as [Hlt|Hge].
    - destruct (layout_lookup_ok _ _ _ _ _ _ s W1 N1) as (r & H' & R & W' & M).
      rewrite R. cbn [bind fst snd]. destruct r as [m|].
      + eexists _, _, _. split; [reflexivity|]. split; [exact W'|]. split; [|split; [simpl; lia|exact M]].
        right. constructor.
        * exists l1, c, b1. cbn. split; [auto|split; [auto|split; [auto|discriminate]]].
        * eapply Forall_same; eauto.
      + destruct (layout_lookup_ok _ _ _ _ _ _ dnu W' N1) as (r' & H'' & R' & W'' & M').
        rewrite R'. cbn [bind fst snd].
        assert (T : target_ok cs c s (TDnu r')) by (destruct r'; simpl; auto).
        eexists _, _, _. split; [reflexivity|]. split; [exact W''|]. split; [|split; [simpl; lia|exact T]].
        right. constructor.
        * exists l1, c, b1. cbn [n_layout n_target]. split; [auto|split; [auto|split; [auto|discriminate]]].
        * eapply Forall_same; eauto.
    - eexists _, _, _. split; [reflexivity|]. split; [exact W1|]. split; [left; reflexivity|split; [simpl; lia|exact I]]. }
  cbv zeta in Add.
  unfold ast_specialize, is_latest. rewrite Ll. cbn [bind snd]. destruct b.
  - cbn [bind fst snd].
    destruct (Add w l true W eq_refl Ll) as (n & ch' & w2 & R & W2 & S2 & L2 & T2).
    rewrite R. cbn [bind fst snd]. apply Fin; auto.
  - destruct (update_layout_ok _ _ _ _ _ W N) as (w1 & l' & U & W1 & E1 & _ & _ & O1 & N1 & _).
    rewrite U. cbn [bind]. unfold obj_layout. rewrite O1. cbn [bind fst snd].
    destruct (node_lookup ch l') as [n|] eqn:Nl'.
    + cbn [bind fst snd]. apply Fin; auto.
      * eapply site_ok_same; eauto.
      * eapply (node_lookup_ok cs w1 s ch l' c true); eauto. eapply site_ok_same; eauto.
    + destruct (Add w1 l' true W1 E1 N1) as (n & ch' & w2 & R & W2 & S2 & L2 & T2).
      rewrite R. cbn [bind fst snd]. apply Fin; auto.
Qed.

(** * Sends by the bytecode interpreter *)
Definition bc_site (cs : list cdef) (w : lworld) (s : string) (ch : chain) : Prop :=
  Forall (fun n => node_ok cs w s n /\ exists m, n_target n = TMethod m) ch.
Lemma bc_site_ok cs w s ch : bc_site cs w s ch -> Forall (node_ok cs w s) ch.
Proof. apply Forall_impl. tauto. Qed.
Lemma bc_site_mono cs cs' w w' s ch : bc_site cs w s ch -> lays_grow w w' -> bc_site (cs ++ cs') w' s ch.
Proof.
  intros F G. eapply Forall_impl; [|exact F]. intros n [A B]. split; auto. eapply node_ok_mono; eauto.
Qed.
Lemma bc_site_same cs w w' s ch : bc_site cs w s ch -> lw_lays w' = lw_lays w -> bc_site cs w' s ch.
Proof.
  intros. rewrite <- (app_nil_r cs). eapply bc_site_mono; eauto. intros l c b N. rewrite H0; eauto.
Qed.
Lemma drop_bc_site cs w s ch ch' n : bc_site cs w s ch -> drop_old_entries w ch = Ok (ch', n) ->
  bc_site cs w s ch'.
Proof.
  intros F. revert ch' n. induction F as [|x t [(l & c & b & L & N & R) M] F IH]; intros ch' n; cbn [drop_old_entries].
  - intros [= <- <-]. constructor.
  - rewrite L. unfold is_latest. rewrite N. cbn [bind snd].
    destruct (drop_old_entries w t) as [[c1 n1]|] eqn:D; [|discriminate]. cbn [bind fst snd].
    destruct b; intros [= <- <-].
    + constructor; [|eapply IH; eauto]. split; auto. exists l, c, true. auto.
    + eapply IH; eauto.
Qed.

(** What a send does to the receivers: nothing, or the receiver moves to the layout of
    its class. *)
Definition moved (w w' : lworld) (o : nat) (b : bool) : Prop :=
  lw_lays w' = lw_lays w
  /\ exists l', nth_error (lw_lays w) l' <> None
      /\ lw_objs w' = (if b then lw_objs w else upd (lw_objs w) o l')
      /\ (b = false -> is_latest w l' = Ok true).

Lemma bc_send_ok cs os w s ch o c l b : wok cs os w ->
  ch = [generic] \/ bc_site cs w s ch -> nth_error os o = Some c ->
  nth_error (lw_objs w) o = Some l -> nth_error (lw_lays w) l = Some (c, b) ->
  (b = false /\ (ch = [generic] \/ lacks cs c s) /\ bc_send w ch s o = Err AttributeError)
  \/ ((b = true \/ (ch <> [generic] /\ exists m, finds cs c s m))
      /\ ((exists out ch' w', bc_send w ch s o = Ok (out, ch', w') /\ wok cs os w'
            /\ ((ch' = [generic] /\ (ch = [generic] \/ lacks cs c s))
                \/ (bc_site cs w' s ch' /\ ch <> [generic] /\ exists m, finds cs c s m))
            /\ moved w w' o b /\ sends cs c s out)
          \/ (bc_send w ch s o = Err AttributeError /\ lacks cs c s /\ lacks cs c dnu))).
Proof.
  intros W St N Ol Ll.
  assert (Fin : forall n ch' w1, wok cs os w1 -> target_ok cs c s (n_target n) ->
     moved w w1 o b ->
     ((ch' = [generic] /\ (ch = [generic] \/ lacks cs c s))
      \/ (bc_site cs w1 s ch' /\ ch <> [generic] /\ exists m, finds cs c s m)) ->
     (exists out ch2 w', (r <- dispatch w1 (n_target n) s o ;; Ok (fst r, ch', snd r)) = Ok (out, ch2, w')
        /\ wok cs os w' /\ ((ch2 = [generic] /\ (ch = [generic] \/ lacks cs c s))
                \/ (bc_site cs w' s ch2 /\ ch <> [generic] /\ exists m, finds cs c s m))
        /\ moved w w' o b /\ sends cs c s out)
     \/ ((r <- dispatch w1 (n_target n) s o ;; Ok (fst r, ch', snd r)) = Err AttributeError
         /\ lacks cs c s /\ lacks cs c dnu)).
  { intros n ch' w1 W1 T1 Mv S1. destruct (dispatch_ok _ _ _ _ _ _ _ W1 N T1) as [(out & H' & D & W' & Sd)|(D & La)].
    - left. rewrite D. cbn [bind fst snd]. exists out, ch', (set_heap w1 H').
      split; [auto|split; [auto|split; [|split; [exact Mv|auto]]]].
      destruct S1 as [S1|[S1 S2]]; [left; auto|right; split; [|auto]].
      eapply bc_site_same; eauto.
    - right. rewrite D. auto. }
  assert (Stale : forall n ch' H' x, b = false -> wok cs os (set_heap w H') ->
     target_ok cs c s (n_target n) -> bc_site cs w s ch' -> ch <> [generic] -> finds cs c s x ->
     (exists out ch2 w', (y <- (if b then Ok (ch', set_heap w H')
         else w' <- update_layout (set_heap w H') o ;; r <- drop_old_entries w' ch' ;; Ok (fst r, w')) ;;
       r <- dispatch (snd y) (n_target n) s o ;; Ok (fst r, fst y, snd r)) = Ok (out, ch2, w')
        /\ wok cs os w' /\ ((ch2 = [generic] /\ (ch = [generic] \/ lacks cs c s))
                \/ (bc_site cs w' s ch2 /\ ch <> [generic] /\ exists m, finds cs c s m))
        /\ moved w w' o b /\ sends cs c s out)
     \/ ((y <- (if b then Ok (ch', set_heap w H')
         else w' <- update_layout (set_heap w H') o ;; r <- drop_old_entries w' ch' ;; Ok (fst r, w')) ;;
       r <- dispatch (snd y) (n_target n) s o ;; Ok (fst r, fst y, snd r)) = Err AttributeError
         /\ lacks cs c s /\ lacks cs c dnu)).
  { intros n ch' H' x -> W1 T1 S1 Ng Fx.
    destruct (update_layout_ok _ _ _ _ _ W1 N) as (w1 & l' & U & W2 & E1 & _ & O2 & O1 & N1 & _).
    rewrite U. cbn [bind].
    assert (S2 : bc_site cs w1 s ch') by (eapply bc_site_same; eauto).
    destruct (drop_ok _ _ _ _ (bc_site_ok _ _ _ _ S2)) as (ch1 & D & _). rewrite D. cbn [bind fst snd].
    apply Fin; auto.
    - split; [exact E1|]. exists l'. rewrite E1 in N1. cbn [lw_lays set_heap] in N1.
      split; [congruence|split; [exact O2|]]. intros _. unfold is_latest. rewrite N1. auto.
    - right. split; [|split; eauto]. eapply drop_bc_site; eauto. }
  assert (Fresh : forall n ch' H', b = true -> wok cs os (set_heap w H') ->
     target_ok cs c s (n_target n) ->
     ((ch' = [generic] /\ (ch = [generic] \/ lacks cs c s))
      \/ (bc_site cs w s ch' /\ ch <> [generic] /\ exists m, finds cs c s m)) ->
     (exists out ch2 w', (y <- (if b then Ok (ch', set_heap w H')
         else w' <- update_layout (set_heap w H') o ;; r <- drop_old_entries w' ch' ;; Ok (fst r, w')) ;;
       r <- dispatch (snd y) (n_target n) s o ;; Ok (fst r, fst y, snd r)) = Ok (out, ch2, w')
        /\ wok cs os w' /\ ((ch2 = [generic] /\ (ch = [generic] \/ lacks cs c s))
                \/ (bc_site cs w' s ch2 /\ ch <> [generic] /\ exists m, finds cs c s m))
        /\ moved w w' o b /\ sends cs c s out)
     \/ ((y <- (if b then Ok (ch', set_heap w H')
         else w' <- update_layout (set_heap w H') o ;; r <- drop_old_entries w' ch' ;; Ok (fst r, w')) ;;
       r <- dispatch (snd y) (n_target n) s o ;; Ok (fst r, fst y, snd r)) = Err AttributeError
         /\ lacks cs c s /\ lacks cs c dnu)).
  { intros n ch' H' -> W1 T1 S1. cbn [bind fst snd]. apply Fin; auto.
    split; [reflexivity|]. exists l. split; [congruence|split; [reflexivity|discriminate]]. }
  assert (Hid : w = set_heap w (lw_heap w)) by (destruct w; reflexivity).
  assert (Hns : [generic] <> ch -> ch <> [generic]) by congruence.
  unfold bc_send, obj_layout. rewrite Ol. cbn [bind]. unfold bc_lookup.
  destruct (node_lookup ch l) as [n|] eqn:Nl.
  - cbn [bind fst snd]. unfold is_latest at 1 2 3. rewrite Ll. cbn [bind snd].
    assert (T1 : target_ok cs c s (n_target n)).
    { eapply (node_lookup_ok cs w s ch l c b); eauto. destruct St as [->|F]; [left; auto|right; apply bc_site_ok; auto]. }
    destruct St as [->|F].
    + simpl in Nl. injection Nl as <-. destruct b.
      * right. split; [auto|]. pose proof (Fresh generic [generic] (lw_heap w) eq_refl) as Q. rewrite <- Hid in Q. apply Q; auto.
      * left. split; [auto|split; [auto|]].
        destruct (update_layout_ok _ _ _ _ _ W N) as (w1 & l' & U & _). rewrite U. reflexivity.
    + assert (Ng : ch <> [generic]).
      { intros ->. inversion F as [|? ? [_ [m X]]]. discriminate. }
      unfold node_lookup in Nl. destruct (find_node ch l) as [n'|] eqn:Fn.
      2: { destruct ch as [|x t]; [discriminate|]. inversion F as [|? ? [(l1 & ? & ? & L1 & _) _]]; subst.
           rewrite L1 in Nl. discriminate. }
      injection Nl as ->. apply find_node_some in Fn. destruct Fn as [In_ _].
      pose proof F as F'. unfold bc_site in F'. rewrite Forall_forall in F'. destruct (F' _ In_) as [_ [m Hm]].
      rewrite Hm in T1. simpl in T1.
      right. split; [right; split; eauto|]. destruct b eqn:Hb.
      * pose proof (Fresh n ch (lw_heap w) eq_refl) as Q. rewrite <- Hid in Q. apply Q; auto.
        { rewrite Hm; exact T1. } right; eauto.
      * pose proof (Stale n ch (lw_heap w) m eq_refl) as Q. rewrite <- Hid in Q. apply Q; auto.
        { rewrite Hm; exact T1. }
  - destruct St as [->|F]; [discriminate|].
    assert (Ng : ch <> [generic]).
    { intros ->. inversion F as [|? ? [_ [m X]]]. discriminate. }
    cbn [Nat.leb].
    destruct (layout_lookup_ok _ _ _ _ _ _ s W Ll) as (r & H' & R & W' & M).
    rewrite R. cbn [bind fst snd]. destruct r as [m|]; cbn [bind fst snd].
    + unfold is_latest at 1 2 3. cbn [lw_lays set_heap]. rewrite Ll. cbn [bind snd].
      right. split; [right; eauto|].
      assert (S1 : bc_site cs w s ({| n_layout := Some l; n_target := TMethod m |} :: ch)).
      { constructor; auto. split; [|eexists; reflexivity]. exists l, c, b.
        split; [reflexivity|split; [auto|split; [exact M|discriminate]]]. }
      destruct b eqn:Hb.
      * apply (Fresh {| n_layout := Some l; n_target := TMethod m |}); auto. right; eauto.
      * eapply (Stale {| n_layout := Some l; n_target := TMethod m |}); eauto.
    + unfold is_latest at 1 2 3. cbn [lw_lays set_heap]. rewrite Ll. cbn [bind snd].
      destruct b.
      * right. split; [auto|]. apply (Fresh generic); auto. { exact I. }
      * left. split; [auto|split; [auto|]].
        destruct (update_layout_ok _ _ _ _ _ W' N) as (w1 & l' & U & _). rewrite U. reflexivity.
Qed.

(** * Histories *)
Lemma classes_snoc cs a op : classes cs (a ++ [op]) = classes (classes cs a) [op].
Proof. revert cs; induction a as [|x a IH]; intros; auto. destruct x; simpl; apply IH. Qed.
Lemma object_classes_snoc cs a op : object_classes cs (a ++ [op]) = object_classes (object_classes cs a) [op].
Proof. revert cs; induction a as [|x a IH]; intros; auto. destruct x; simpl; apply IH. Qed.
Lemma stale_after_snoc cs a op : stale_after cs (a ++ [op]) = stale_after (stale_after cs a) [op].
Proof. revert cs; induction a as [|x a IH]; intros; auto. destruct x; simpl; apply IH. Qed.
Lemma lrun_snoc send s st a op : lrun send s st (a ++ [op]) =
  (st' <- lrun send s st a ;; lexec send s st' op).
Proof.
  revert st; induction a as [|x a IH]; intros; cbn [lrun app].
  - cbn [bind]. destruct (lexec send s st op); reflexivity.
  - destruct (lexec send s st x); cbn [bind]; auto.
Qed.
Lemma lvalid_snoc a op : forall nc no, lvalid_history nc no (a ++ [op]) ->
  lvalid_history nc no a
  /\ forall cs os, length cs = nc -> length os = no ->
     lvalid (length (classes cs a)) (length (object_classes os a)) op.
Proof.
  induction a as [|x a IH]; intros nc no H; cbn [app lvalid_history] in *.
  - destruct H as [H _]. split; auto. intros cs os <- <-. auto.
  - destruct H as [H1 H2]. apply IH in H2. destruct H2 as [H2 H3]. split; [auto|].
    intros cs os Lc Lo. destruct x; cbn [classes object_classes]; apply H3; rewrite ?app_length; simpl; lia.
Qed.
Lemma valid_send_in a : forall nc no os o, lvalid_history nc no a -> length os = no ->
  In (LSend o) a -> o < length (object_classes os a).
Proof.
  assert (G : forall b os, length os <= length (object_classes os b)).
  { clear a. induction b as [|x b IH]; intros; auto. destruct x; cbn [object_classes]; auto.
    specialize (IH (os ++ [c])). rewrite app_length in IH. simpl in IH. lia. }
  induction a as [|x a IH]; intros nc no os o V L I; [destruct I|].
  destruct V as [V1 V2]. destruct I as [->|I].
  - cbn in *. specialize (G a os). lia.
  - destruct x; cbn [object_classes]; eapply IH; eauto. rewrite app_length; simpl; lia.
Qed.

Lemma wok_empty : wok [] [] empty_world.
Proof.
  assert (X : forall n A (x : A), nth_error [] n <> Some x) by (intros [|n]; discriminate).
  split.
  - split; [intros c d p N; apply X in N; tauto|]. split; [auto|]. intros c k N; apply X in N; tauto.
  - split; [auto|]. split; [intros ? ? N; apply X in N; tauto|]. split; [intros ? ? N; apply X in N; tauto|].
    split; [intros ? ? ? N; apply X in N; tauto|]. split; [auto|intros ? ? N; apply X in N; tauto].
Qed.

Definition ast_inv (s : string) (ops : list lop) (st : chain * lworld) : Prop :=
  wok (classes [] ops) (object_classes [] ops) (snd st)
  /\ site_ok (classes [] ops) (snd st) s (fst st) /\ length (fst st) <= 6.

Lemma nth_lt_some {A} (l : list A) i : i < length l -> exists x, nth_error l i = Some x.
Proof. intros H. destruct (nth_error l i) eqn:E; eauto. apply nth_error_None in E. lia. Qed.

Lemma lookup_step cs os w c s' : wok cs os w -> c < length cs ->
  exists r H', lookup_invokable (fuel_of (lw_heap w)) (lw_heap w) c s' = Ok (r, H') /\ wok cs os (set_heap w H')
    /\ match r with Some m => finds cs c s' m | None => lacks cs c s' /\ H' = lw_heap w end.
Proof.
  intros W Hc. assert (K : hok cs (lw_heap w)) by apply W.
  destruct (lookup_ok cs (fuel_of (lw_heap w)) (lw_heap w) c s' K) as (r & H' & R & K' & _ & M).
  - destruct K as (_ & L & _). unfold fuel_of. lia.
  - auto.
  - exists r, H'. split; [auto|split; [|auto]]. eapply wok_heap; eauto.
Qed.

Lemma ast_step s ops op st :
  ast_inv s ops st -> lvalid (length (classes [] ops)) (length (object_classes [] ops)) op ->
  (exists st', lexec ast_send s st op = Ok st' /\ ast_inv s (ops ++ [op]) st')
  \/ (exists o c, op = LSend o /\ lexec ast_send s st op = Err AttributeError
       /\ nth_error (object_classes [] ops) o = Some c
       /\ lacks (classes [] ops) c s /\ lacks (classes [] ops) c dnu).
Proof.
  destruct st as [ch w]. intros (W & St & Len) V. cbn [fst snd] in *.
  unfold ast_inv. rewrite classes_snoc, object_classes_snoc.
  destruct op as [sup ms prims|c s'|c|o|o|o]; cbn [classes object_classes lexec lvalid] in *.
  - left. eexists. split; [reflexivity|]. cbn [fst snd].
    destruct (load_ok _ _ _ sup ms prims W) as [W' G].
    { intros p ->. auto. }
    split; [auto|split; [|auto]]. eapply site_ok_mono; eauto.
  - left. destruct (lookup_step _ _ _ c s' W V) as (r & H' & R & W' & _). rewrite R. cbn [bind fst snd].
    eexists. split; [reflexivity|]. cbn [fst snd]. split; [auto|split; [|auto]]. eapply site_ok_same; eauto.
  - left. destruct (new_instance_ok _ _ _ c W V) as (w' & l & R & W' & E & _). rewrite R. cbn [bind].
    eexists. split; [reflexivity|]. cbn [fst snd]. split; [auto|split; [|auto]]. eapply site_ok_same; eauto.
  - left. destruct (nth_lt_some _ _ V) as [c N].
    destruct (new_layout_ok _ _ _ o c W N) as (w' & old & R & W' & G & _). rewrite R. cbn [bind].
    eexists. split; [reflexivity|]. cbn [fst snd]. split; [auto|split; [|auto]].
    rewrite <- (app_nil_r (classes [] ops)). eapply site_ok_mono; eauto.
  - left. destruct (nth_lt_some _ _ V) as [c N].
    destruct (update_layout_ok _ _ _ o c W N) as (w' & l' & R & W' & E & _). rewrite R. cbn [bind].
    eexists. split; [reflexivity|]. cbn [fst snd]. split; [auto|split; [|auto]]. eapply site_ok_same; eauto.
  - destruct (nth_lt_some _ _ V) as [c N].
    destruct (ast_send_ok _ _ _ s ch o c W St Len N) as [(out & ch' & w' & R & W' & S' & L' & _)|(R & La & Ld)].
    + left. rewrite R. cbn [bind fst snd]. eexists. split; [reflexivity|]. auto.
    + right. exists o, c. rewrite R. auto.
Qed.

Lemma ast_run s ops : lvalid_history 0 0 ops -> forall st,
  lrun ast_send s ([], empty_world) ops = Ok st -> ast_inv s ops st.
Proof.
  induction ops as [|op ops IH] using rev_ind; intros V st.
  - simpl. intros [= <-]. split; [apply wok_empty|]. split; [right; constructor|simpl; lia].
  - apply lvalid_snoc in V. destruct V as [V1 V2]. rewrite lrun_snoc.
    destruct (lrun ast_send s ([], empty_world) ops) as [st0|] eqn:R; [|discriminate]. cbn [bind].
    intros E. destruct (ast_step s ops op st0 (IH V1 _ eq_refl) (V2 [] [] eq_refl eq_refl))
      as [(st' & R' & I)|(o & c & _ & R' & _)]; congruence.
Qed.

(** If every class understands doesNotUnderstand:arguments:, every history runs. *)
Lemma lacks_snoc ops op c s : lacks (classes [] ops) c s -> lacks (classes [] (ops ++ [op])) c s.
Proof. rewrite classes_snoc. destruct op; cbn [classes]; auto using lacks_app. Qed.

Lemma ast_run_total s ops : lvalid_history 0 0 ops ->
  (forall c, ~ lacks (classes [] ops) c dnu) ->
  exists st, lrun ast_send s ([], empty_world) ops = Ok st.
Proof.
  induction ops as [|op ops IH] using rev_ind; intros V D.
  - eexists; reflexivity.
  - apply lvalid_snoc in V. destruct V as [V1 V2]. rewrite lrun_snoc.
    destruct IH as [st R]; auto. { intros c L. apply (D c). apply lacks_snoc; auto. }
    rewrite R. cbn [bind].
    destruct (ast_step s ops op st (ast_run _ _ V1 _ R) (V2 [] [] eq_refl eq_refl))
      as [(st' & R' & I)|(o & c & -> & _ & _ & _ & Ld)]; eauto.
    exfalso. apply (D c). apply lacks_snoc; auto.
Qed.

(** ** The bytecode interpreter *)
Definition wst (st : list (nat * bool)) (w : lworld) : Prop :=
  length st = length (lw_objs w) /\
  forall o l c b, nth_error (lw_objs w) o = Some l -> nth_error (lw_lays w) l = Some (c, b) ->
    nth o st (0, false) = (c, negb b).

Lemma nth_map_seq {A} (f : nat -> A) n i d : i < n -> nth i (map f (seq 0 n)) d = f i.
Proof.
  intros H. rewrite nth_indep with (d' := f n) by (rewrite map_length, seq_length; auto).
  rewrite map_nth, seq_nth; auto.
Qed.

Definition bc_inv (s : string) (ops : list lop) (st : chain * lworld) : Prop :=
  wok (classes [] ops) (object_classes [] ops) (snd st)
  /\ wst (stale_after [] ops) (snd st)
  /\ ((fst st = [generic] /\ missed ops s) \/ (bc_site (classes [] ops) (snd st) s (fst st) /\ ~ missed ops s)).

Lemma wst_moved st w w' o b l c : wst st w -> nth_error (lw_objs w) o = Some l ->
  nth_error (lw_lays w) l = Some (c, b) -> moved w w' o b ->
  (forall l' c' b', nth_error (lw_objs w') o = Some l' -> nth_error (lw_lays w') l' = Some (c', b') -> c' = c) ->
  wst (stale_after st [LSend o]) w'.
Proof.
  intros [L H] N Nl (E & l' & _ & O & La) Hc. cbn [stale_after]. split.
  - rewrite map_length, seq_length, L, O. destruct b; rewrite ?upd_length; auto.
  - intros i li ci bi N1 N2.
    assert (Hi : i < length (lw_objs w)).
    { rewrite O in N1. assert (i < length (if b then lw_objs w else upd (lw_objs w) o l')) by (apply nth_error_Some; congruence).
      destruct b; rewrite ?upd_length in H0; auto. }
    rewrite nth_map_seq by lia. destruct (Nat.eqb_spec i o).
    + subst i. pose proof (Hc _ _ _ N1 N2). subst ci. rewrite (H _ _ _ _ N Nl). cbn [fst].
      destruct b.
      * rewrite O, N in N1. injection N1 as <-. rewrite E, Nl in N2. injection N2 as <-. auto.
      * rewrite O, nth_upd_same in N1 by auto. injection N1 as <-. specialize (La eq_refl).
        unfold is_latest in La. rewrite <- E, N2 in La. injection La as ->. auto.
    + assert (N1' : nth_error (lw_objs w) i = Some li).
      { rewrite O in N1. destruct b; auto. rewrite nth_upd_other in N1; auto. }
      rewrite E in N2. rewrite (H _ _ _ _ N1' N2). auto.
Qed.

Lemma stale_lookup st w o l c b : wst st w -> nth_error (lw_objs w) o = Some l ->
  nth_error (lw_lays w) l = Some (c, b) -> snd (nth o st (0, false)) = negb b.
Proof. intros [_ H] N1 N2. rewrite (H _ _ _ _ N1 N2). auto. Qed.

Lemma missed_snoc s ops op w : lvalid_history 0 0 ops ->
  wok (classes [] ops) (object_classes [] ops) w ->
  (missed (ops ++ [op]) s <-> missed ops s \/ exists o c, op = LSend o
     /\ nth_error (object_classes [] ops) o = Some c /\ lacks (classes [] ops) c s).
Proof.
  intros V W. assert (Len := W). destruct Len as (K & _ & _ & _ & _ & _ & _).
  assert (Obj : forall o c, nth_error (object_classes [] ops) o = Some c ->
     nth_error (object_classes [] (ops ++ [op])) o = Some c /\ c < length (classes [] ops)).
  { intros o c N. rewrite object_classes_snoc. destruct (wok_obj _ _ _ _ _ W N) as (_ & _ & _ & _ & Hc).
    split; auto. destruct op; cbn [object_classes]; auto. apply nth_app_some; auto. }
  assert (Back : forall o c, In (LSend o) ops -> nth_error (object_classes [] (ops ++ [op])) o = Some c ->
     nth_error (object_classes [] ops) o = Some c).
  { intros o c I N. pose proof (valid_send_in _ _ _ [] _ V eq_refl I) as Lt. destruct (nth_lt_some _ _ Lt) as [c' N'].
    destruct (Obj _ _ N'). congruence. }
  assert (La : forall c, c < length (classes [] ops) ->
     lacks (classes [] (ops ++ [op])) c s <-> lacks (classes [] ops) c s).
  { intros c Hc. split; [|apply lacks_snoc]. intros L.
    destruct K as (A & _). destruct (finds_or_lacks _ c s A Hc) as [[m F]|]; auto.
    exfalso. eapply finds_lacks; [|exact L]. rewrite classes_snoc. destruct op; cbn [classes]; eauto using finds_app. }
  split.
  - intros (o & c & I & N & L). apply in_app_iff in I. destruct I as [I|[->|[]]].
    + left. exists o, c. split; [auto|]. apply Back in N; auto. split; auto. apply La; auto. eapply Obj; eauto.
    + right. exists o, c. rewrite object_classes_snoc in N. cbn [object_classes] in N.
      split; [auto|split; [auto|]]. apply La; auto. eapply Obj; eauto.
  - intros [(o & c & I & N & L)|(o & c & -> & N & L)].
    + exists o, c. split; [apply in_app_iff; auto|]. destruct (Obj _ _ N). split; auto. apply La; auto.
    + exists o, c. split; [apply in_app_iff; right; left; auto|]. destruct (Obj _ _ N). split; auto. apply La; auto.
Qed.

(** One more send: exact outcome. *)
Lemma bc_send_exact s ops ch w o : lvalid_history 0 0 ops -> bc_inv s ops (ch, w) ->
  o < length (object_classes [] ops) ->
  exists c, nth_error (object_classes [] ops) o = Some c /\
  ((stale ops o = true /\ missed (ops ++ [LSend o]) s /\ bc_send w ch s o = Err AttributeError)
   \/ (~ (stale ops o = true /\ missed (ops ++ [LSend o]) s) /\
      ((exists out ch' w', bc_send w ch s o = Ok (out, ch', w') /\ sends (classes [] ops) c s out
          /\ bc_inv s (ops ++ [LSend o]) (ch', w'))
       \/ (bc_send w ch s o = Err AttributeError /\ lacks (classes [] ops) c s /\ lacks (classes [] ops) c dnu)))).
Proof.
  intros V (W & T & St) Ho. cbn [fst snd] in *. destruct (nth_lt_some _ _ Ho) as [c N]. exists c. split; auto.
  destruct (wok_obj _ _ _ _ _ W N) as (l & b & Ol & Ll & _).
  pose proof (stale_lookup _ _ _ _ _ _ T Ol Ll) as Sb. fold (stale ops o) in Sb.
  pose proof (missed_snoc s ops (LSend o) w V W) as Ms.
  assert (Ms' : missed (ops ++ [LSend o]) s <-> missed ops s \/ lacks (classes [] ops) c s).
  { rewrite Ms. split; intros [X|X]; auto.
    - destruct X as (o' & c' & [= <-] & N' & L). right. congruence.
    - right. eauto. }
  assert (NL : forall m, finds (classes [] ops) c s m -> ~ lacks (classes [] ops) c s).
  { intros m F L. eapply finds_lacks; eauto. }
  assert (Gen : ch = [generic] <-> missed ops s).
  { destruct St as [[-> M]|[F M]]; [tauto|]. split; [|tauto]. intros ->. inversion F as [|? ? [_ [m X]]]. discriminate. }
  destruct (bc_send_ok _ _ _ s ch o c l b W) as [(Hb & G & R)|(Hb & R)]; auto.
  { destruct St as [[-> _]|[F _]]; auto. }
  - left. subst b. cbn in Sb. split; [auto|split; [|auto]]. apply Ms'. destruct G; [left; apply Gen; auto|auto].
  - right. split.
    { intros [Sx Mx]. apply Ms' in Mx. rewrite Sx in Sb. destruct b; [discriminate|].
      destruct Hb as [|[Ng [m F]]]; [discriminate|]. destruct Mx as [Mx|Mx].
      - apply Gen in Mx. auto.
      - eapply NL; eauto. }
    destruct R as [(out & ch' & w' & R & W' & S' & Mv & Sd)|R]; [left|right; auto].
    exists out, ch', w'. split; [auto|split; [auto|]]. unfold bc_inv. cbn [fst snd].
    rewrite classes_snoc, object_classes_snoc, stale_after_snoc. cbn [classes object_classes].
    split; [auto|split].
    + eapply wst_moved; eauto. intros l' c' b' N1 N2.
      destruct W' as (_ & _ & _ & _ & _ & _ & O). destruct (O _ _ N1) as (c2 & b2 & X & Y). congruence.
    + destruct S' as [[-> G]|(F & Ng & m & Fm)].
      * left. split; auto. apply Ms'. destruct G; [left; apply Gen; auto|auto].
      * right. split; auto. rewrite Ms'. intros [X|X]; [apply Gen in X; auto|eapply NL; eauto].
Qed.

Lemma bc_step s ops op st : lvalid_history 0 0 ops ->
  bc_inv s ops st -> lvalid (length (classes [] ops)) (length (object_classes [] ops)) op ->
  (exists st', lexec bc_send s st op = Ok st' /\ bc_inv s (ops ++ [op]) st')
  \/ (exists o c, op = LSend o /\ lexec bc_send s st op = Err AttributeError
       /\ nth_error (object_classes [] ops) o = Some c
       /\ ((stale ops o = true /\ missed (ops ++ [op]) s)
           \/ (lacks (classes [] ops) c s /\ lacks (classes [] ops) c dnu))).
Proof.
  destruct st as [ch w]. intros Vh I V.
  assert (Nosend : (forall o, op <> LSend o) ->
    missed (ops ++ [op]) s <-> missed ops s).
  { intros Q. destruct I as (W & _). rewrite (missed_snoc s ops op _ Vh W). split; auto.
    intros [|(o & c & E & _)]; auto. exfalso; eapply Q; eauto. }
  assert (Keep : forall w' cs', (forall o, op <> LSend o) ->
     lays_grow w w' -> classes [] (ops ++ [op]) = classes [] ops ++ cs' ->
     ((ch = [generic] /\ missed (ops ++ [op]) s)
       \/ (bc_site (classes [] (ops ++ [op])) w' s ch /\ ~ missed (ops ++ [op]) s))).
  { intros w' cs' Q G E. rewrite (Nosend Q). destruct I as (_ & _ & [S1|[S1 S2]]); [left; exact S1|right].
    split; auto. rewrite E. eapply bc_site_mono; eauto. }
  destruct op as [sup ms prims|c s'|c|o|o|o]; cbn [lexec lvalid] in *.
  - left. eexists. split; [reflexivity|]. destruct I as (W & T & St). cbn [fst snd] in *.
    destruct (load_ok _ _ _ sup ms prims W) as [W' G]. { intros p ->. auto. }
    unfold bc_inv. cbn [fst snd]. split; [|split].
    + rewrite classes_snoc, object_classes_snoc. exact W'.
    + rewrite stale_after_snoc. cbn [stale_after]. destruct T as [T1 T2]. split; [exact T1|].
      intros o l c b N1 N2. cbn in N1, N2. assert (W2 := W). destruct W2 as (_ & _ & _ & _ & _ & _ & O).
      destruct (O _ _ N1) as (c0 & b0 & X & Y). rewrite (nth_app_some _ _ _ _ Y) in N2.
      injection N2 as <- <-. eauto.
    + eapply Keep; eauto. { intros; discriminate. } rewrite classes_snoc. reflexivity.
  - left. assert (I0 := I). destruct I as (W & T & St). cbn [fst snd] in *.
    destruct (lookup_step _ _ _ c s' W V) as (r & H' & R & W' & _). rewrite R. cbn [bind fst snd].
    eexists. split; [reflexivity|]. unfold bc_inv. cbn [fst snd]. split; [|split].
    + rewrite classes_snoc, object_classes_snoc. exact W'.
    + rewrite stale_after_snoc. exact T.
    + eapply Keep with (cs' := []). { intros; discriminate. }
      { intros l0 c0 b0 N0; exists b0; exact N0. } rewrite classes_snoc, app_nil_r. reflexivity.
  - left. assert (I0 := I). destruct I as (W & T & St). cbn [fst snd] in *.
    destruct (new_instance_ok _ _ _ c W V) as (w' & l & R & W' & E & Eo & El & _). rewrite R. cbn [bind].
    eexists. split; [reflexivity|]. unfold bc_inv. cbn [fst snd]. split; [|split].
    + rewrite classes_snoc, object_classes_snoc. exact W'.
    + rewrite stale_after_snoc. cbn [stale_after]. destruct T as [T1 T2]. split.
      { rewrite Eo, !app_length, T1. auto. }
      intros o0 l0 c0 b0 N1 N2. rewrite Eo in N1. rewrite E in N2. apply nth_error_app_last in N1.
      destruct N1 as [[N1 Hlt]|[-> ->]].
      * rewrite app_nth1 by lia. eauto.
      * rewrite app_nth2 by lia. rewrite T1, Nat.sub_diag. rewrite El in N2. injection N2 as <- <-. auto.
    + eapply Keep with (cs' := []). { intros; discriminate. }
      { intros l0 c0 b0 N0; exists b0; rewrite E; exact N0. } rewrite classes_snoc, app_nil_r. reflexivity.
  - left. assert (I0 := I). destruct I as (W & T & St). cbn [fst snd] in *.
    destruct (nth_lt_some _ _ V) as [c N].
    destruct (new_layout_ok _ _ _ o c W N) as (w' & old & R & W' & G & Ec & El & Eo). rewrite R. cbn [bind].
    eexists. split; [reflexivity|]. unfold bc_inv. cbn [fst snd]. split; [|split].
    + rewrite classes_snoc, object_classes_snoc. exact W'.
    + rewrite stale_after_snoc. cbn [stale_after]. destruct T as [T1 T2]. split.
      { rewrite map_length, seq_length, Eo, upd_length. auto. }
      destruct (wok_obj _ _ _ _ _ W N) as (lo & bo & Ol & Ll & _).
      rewrite (T2 _ _ _ _ Ol Ll). cbn [fst].
      assert (Ho : o < length (lw_objs w)) by (apply nth_error_Some; congruence).
      destruct W as (_ & _ & C1 & C2 & _ & _ & O).
      assert (Hold := C1 _ _ Ec).
      intros i li ci bi N1 N2. rewrite Eo in N1.
      assert (Hi : i < length (lw_objs w)).
      { assert (Q : i < length (upd (lw_objs w) o (length (lw_lays w)))) by (apply nth_error_Some; congruence).
        rewrite upd_length in Q. auto. }
      rewrite nth_map_seq by lia. destruct (Nat.eqb_spec i o).
      * subst i. rewrite nth_upd_same in N1 by auto. injection N1 as <-.
        rewrite El, nth_error_app2 in N2 by (rewrite upd_length; auto).
        rewrite upd_length, Nat.sub_diag in N2. injection N2 as <- <-.
        rewrite (T2 _ _ _ _ Ol Ll). auto.
      * rewrite nth_upd_other in N1 by auto. destruct (O _ _ N1) as (c1 & b1 & X & Y).
        rewrite (T2 _ _ _ _ N1 Y). cbn [fst snd].
        assert (li < length (lw_lays w)) by (apply nth_error_Some; congruence).
        rewrite El, nth_error_app1 in N2 by (rewrite upd_length; auto).
        rewrite nth_error_upd in N2. destruct (Nat.eqb_spec old li).
        -- subst li. destruct (Nat.ltb _ _); [|discriminate]. injection N2 as <- <-.
           assert (c1 = c) by congruence. subst. rewrite Nat.eqb_refl. auto.
        -- rewrite Y in N2. injection N2 as <- <-. destruct (Nat.eqb_spec c1 c); auto. subst.
           destruct b1; auto. apply C2 in Y. congruence.
    + eapply Keep with (cs' := []). { intros; discriminate. } { exact G. }
      rewrite classes_snoc, app_nil_r. reflexivity.
  - left. assert (I0 := I). destruct I as (W & T & St). cbn [fst snd] in *.
    destruct (nth_lt_some _ _ V) as [c N].
    destruct (update_layout_ok _ _ _ o c W N) as (w' & l' & R & W' & E & _ & Eo & No & Nl & _). rewrite R. cbn [bind].
    eexists. split; [reflexivity|]. unfold bc_inv. cbn [fst snd]. split; [|split].
    + rewrite classes_snoc, object_classes_snoc. exact W'.
    + rewrite stale_after_snoc. cbn [stale_after]. destruct T as [T1 T2]. split.
      { rewrite map_length, seq_length, Eo, upd_length. auto. }
      destruct (wok_obj _ _ _ _ _ W N) as (lo & bo & Ol & Ll & _).
      intros i li ci bi N1 N2.
      assert (Hi : i < length (lw_objs w)).
      { assert (Q : i < length (lw_objs w')) by (apply nth_error_Some; congruence).
        rewrite Eo, upd_length in Q. auto. }
      rewrite nth_map_seq by lia. destruct (Nat.eqb_spec i o).
      * subst i. rewrite No in N1. injection N1 as <-. rewrite Nl in N2. injection N2 as <- <-.
        rewrite (T2 _ _ _ _ Ol Ll). auto.
      * rewrite Eo, nth_upd_other in N1 by auto. rewrite E in N2. rewrite (T2 _ _ _ _ N1 N2). auto.
    + eapply Keep with (cs' := []). { intros; discriminate. }
      { intros l0 c0 b0 N0; exists b0; rewrite E; exact N0. } rewrite classes_snoc, app_nil_r. reflexivity.
  - destruct (bc_send_exact s ops ch w o Vh I V) as (c & N & [(S1 & M & R)|(_ & [(out & ch' & w' & R & _ & I')|(R & La & Ld)])]).
    + right. exists o, c. rewrite R. split; [auto|split; [auto|split; [auto|left; auto]]].
    + left. rewrite R. cbn [bind fst snd]. eexists; split; [reflexivity|exact I'].
    + right. exists o, c. rewrite R. split; [auto|split; [auto|split; [auto|right; auto]]].
Qed.

Lemma bc_run s ops : lvalid_history 0 0 ops -> forall st,
  lrun bc_send s ([], empty_world) ops = Ok st -> bc_inv s ops st.
Proof.
  induction ops as [|op ops IH] using rev_ind; intros V st.
  - simpl. intros [= <-]. split; [apply wok_empty|]. split.
    + split; auto. intros o l c b N. destruct o; discriminate.
    + right. split; [constructor|]. intros (o & c & [] & _).
  - apply lvalid_snoc in V. destruct V as [V1 V2]. rewrite lrun_snoc.
    destruct (lrun bc_send s ([], empty_world) ops) as [st0|] eqn:R; [|discriminate]. cbn [bind].
    intros E. destruct (bc_step s ops op st0 V1 (IH V1 _ eq_refl) (V2 [] [] eq_refl eq_refl))
      as [(st' & R' & I)|(o & c & _ & R' & _)]; congruence.
Qed.

(** * methods *)
Lemma dset_keys d s m : map fst (dset d s m) =
  if existsb (String.eqb s) (map fst d) then map fst d else map fst d ++ [s].
Proof.
  induction d as [|[k v] d IH]; auto. cbn [dset map existsb fst].
  rewrite (String.eqb_sym s k). destruct (String.eqb k s); auto. cbn [map fst orb]. rewrite IH.
  destruct (existsb _ _); auto.
Qed.
Lemma dset_nodup d s m : NoDup (map fst d) -> NoDup (map fst (dset d s m)).
Proof.
  intros N. rewrite dset_keys. destruct (existsb (String.eqb s) (map fst d)) eqn:E; auto.
  rewrite <- (rev_involutive (map fst d ++ [s])). apply NoDup_rev. rewrite rev_app_distr. simpl.
  constructor; [|apply NoDup_rev; auto]. rewrite <- in_rev. intros I.
  assert (existsb (String.eqb s) (map fst d) = true) by (apply existsb_exists; exists s; split; auto; apply String.eqb_refl).
  congruence.
Qed.
Lemma dfold_nodup ms : forall d, NoDup (map fst d) -> NoDup (map fst (dfold d ms)).
Proof. induction ms as [|p ms IH]; intros; auto. apply IH. apply dset_nodup; auto. Qed.
Lemma dfold_keys ms : forall d, map fst (dfold d ms) =
  map fst d ++ filter (fun s => negb (existsb (String.eqb s) (map fst d))) (first_occurrences (map fst ms)).
Proof.
  induction ms as [|[k v] ms IH]; intros d.
  - simpl. rewrite app_nil_r. auto.
  - change (dfold d ((k, v) :: ms)) with (dfold (dset d k v) ms). rewrite IH, dset_keys.
    cbn [map fst first_occurrences filter].
    destruct (existsb (String.eqb k) (map fst d)) eqn:E; cbn [negb].
    + clear IH. f_equal. induction (first_occurrences (map fst ms)) as [|x t IHt]; auto. cbn [filter].
      destruct (String.eqb_spec k x).
      * subst. rewrite E. cbn [negb]. auto.
      * cbn [negb filter]. destruct (negb _); auto. f_equal. auto.
    + clear IH. rewrite <- app_assoc. cbn [app]. do 2 f_equal.
      induction (first_occurrences (map fst ms)) as [|x t IHt]; auto. cbn [filter].
      rewrite existsb_app. cbn [existsb]. rewrite orb_false_r, (String.eqb_sym x k).
      destruct (String.eqb k x); cbn [negb filter].
      * rewrite orb_true_r. cbn [negb]. auto.
      * rewrite orb_false_r. destruct (negb _); auto. f_equal; auto.
Qed.
Lemma filter_true {A} (l : list A) : filter (fun _ => true) l = l.
Proof. induction l; simpl; congruence. Qed.
Lemma nodup_values d : NoDup (map fst d) ->
  map snd d = flat_map (fun s => match dget d s with Some m => [m] | None => [] end) (map fst d).
Proof.
  induction d as [|[k v] d IH]; intros N; auto. inversion N as [|? ? Nk Nd]; subst.
  cbn [map fst snd flat_map dget]. rewrite String.eqb_refl. cbn [app]. f_equal. rewrite IH by auto.
  clear -Nk. induction (map fst d) as [|x t IHt]; auto. cbn [flat_map]. rewrite IHt by (intros I; apply Nk; right; auto).
  destruct (String.eqb_spec k x); auto. subst. exfalso. apply Nk. left; auto.
Qed.
Lemma own_methods_values ms : map snd (dict_of ms) = own_methods ms.
Proof.
  assert (N : NoDup (map fst (dict_of ms))) by (apply (dfold_nodup ms []); constructor).
  rewrite (nodup_values _ N). unfold own_methods.
  assert (K : map fst (dict_of ms) = first_occurrences (map fst ms)).
  { unfold dict_of. change (map fst (dfold [] ms) = first_occurrences (map fst ms)).
    rewrite dfold_keys. cbn. apply filter_true. }
  rewrite K. apply flat_map_ext. intros x. rewrite dget_dict_of. auto.
Qed.

Lemma methods_ok cs H c k d : hok cs H -> nth_error H c = Some k -> nth_error cs c = Some d ->
  exists ext, get_instance_invokables k = own_methods (d_methods d) ++ ext
    /\ forall m, In m ext -> exists s, defined (d_methods d) s = None /\ finds cs c s m.
Proof.
  intros (_ & _ & T) N Nd. destruct (T _ _ N) as (d' & Nd' & _ & ext & E & X & _).
  assert (d' = d) by congruence. subst d'. exists (map snd ext).
  assert (G : get_instance_invokables k = map snd (entries (k_table k))).
  { unfold get_instance_invokables. destruct (k_table k); auto. }
  rewrite G, E, map_app, own_methods_values. split; auto.
  intros m I. apply in_map_iff in I. destruct I as [[s m'] [Hm I]]. cbn in Hm. subst m'. exists s. auto.
Qed.

(** * The bytecode cache grows without bound *)
Definition many_receivers (s : string) (n : nat) : list lop :=
  LLoad None [(s, 0)] [] ::
  flat_map (fun i => [LLoad (Some 0) [] []; LNew (S i); LSend i]) (seq 0 n).

Lemma lrun_app send s a b st : lrun send s st (a ++ b) = (st' <- lrun send s st a ;; lrun send s st' b).
Proof.
  revert st; induction a as [|x a IH]; intros; cbn [lrun app bind]; auto.
  destruct (lexec send s st x); cbn [bind]; auto.
Qed.
Lemma lvalid_app a : forall nc no b, lvalid_history nc no (a ++ b) <-> lvalid_history nc no a
   /\ forall cs os, length cs = nc -> length os = no ->
      lvalid_history (length (classes cs a)) (length (object_classes os a)) b.
Proof.
  induction a as [|x a IH]; intros nc no b; cbn [app lvalid_history].
  - split; [intros H; split; auto; intros cs os <- <-; auto|intros [_ H]].
    specialize (H (repeat {| d_super := None; d_methods := [] |} nc) (repeat 0 no)
      (repeat_length _ _) (repeat_length _ _)). cbn in H. rewrite !repeat_length in H. auto.
  - rewrite IH. split.
    + intros (H1 & H2 & H3). split; [auto|]. intros cs os Lc Lo.
      destruct x; cbn [classes object_classes]; apply H3; rewrite ?app_length; simpl; lia.
    + intros ((H1 & H2) & H3). split; [auto|split; [auto|]]. intros cs os Lc Lo.
      assert (exists cs0 os0, length cs0 = nc /\ length os0 = no /\
        length (classes cs a) = length (classes cs0 (x :: a)) /\
        length (object_classes os a) = length (object_classes os0 (x :: a))) as (cs0 & os0 & A & B & C & D).
      { assert (LC : forall a c1 c2, length c1 = length c2 -> length (classes c1 a) = length (classes c2 a)).
        { clear. induction a as [|y a IH]; intros; auto. destruct y; cbn [classes]; auto. apply IH. rewrite !app_length, H; auto. }
        assert (LO : forall a c1 c2, length c1 = length c2 -> length (object_classes c1 a) = length (object_classes c2 a)).
        { clear. induction a as [|y a IH]; intros; auto. destruct y; cbn [object_classes]; auto. apply IH. rewrite !app_length, H; auto. }
        exists (repeat {| d_super := None; d_methods := [] |} nc), (repeat 0 no).
        split; [apply repeat_length|split; [apply repeat_length|]].
        destruct x; cbn [classes object_classes]; split; (apply LC || apply LO);
          rewrite ?app_length, ?repeat_length; simpl; lia. }
      rewrite C, D. apply H3; auto.
Qed.

Lemma many_snoc s n : many_receivers s (S n) =
  many_receivers s n ++ [LLoad (Some 0) [] []; LNew (S n); LSend n].
Proof.
  unfold many_receivers. rewrite seq_S, flat_map_app. cbn [flat_map app]. rewrite ?app_nil_r. reflexivity.
Qed.
Lemma many_counts s n : length (classes [] (many_receivers s n)) = S n
  /\ length (object_classes [] (many_receivers s n)) = n
  /\ nth_error (classes [] (many_receivers s n)) 0 = Some {| d_super := None; d_methods := [(s, 0)] |}
  /\ lvalid_history 0 0 (many_receivers s n).
Proof.
  assert (CA : forall a b cs, classes cs (a ++ b) = classes (classes cs a) b).
  { induction a as [|y a IH]; intros; auto. destruct y; cbn [classes app]; auto. }
  assert (OA : forall a b cs, object_classes cs (a ++ b) = object_classes (object_classes cs a) b).
  { induction a as [|y a IH]; intros; auto. destruct y; cbn [object_classes app]; auto. }
  induction n as [|n (IH1 & IH2 & IH3 & IH4)].
  - cbn. auto.
  - rewrite many_snoc, CA, OA, lvalid_app. cbn [classes object_classes].
    rewrite !app_length, IH1, IH2. split; [simpl; lia|split; [simpl; lia|split]].
    + apply nth_app_some; auto.
    + split; auto. intros [|] [|] L1 L2; try discriminate. rewrite IH1, IH2. cbn. lia.
Qed.

Lemma bc_cache_grows s n : exists st, lrun bc_send s ([], empty_world) (many_receivers s n) = Ok st
  /\ length (fst st) = n.
Proof.
  induction n as [|n (st & R & L)].
  - eexists. split; reflexivity.
  - destruct (many_counts s n) as (C1 & C2 & C3 & V).
    pose proof (bc_run s _ V st R) as (W & T & St).
    destruct st as [ch w]. cbn [fst snd] in *.
    set (cs := classes [] (many_receivers s n)) in *. set (os := object_classes [] (many_receivers s n)) in *.
    assert (F0 : finds cs 0 s 0).
    { eapply finds_here; [exact C3|]. cbn. rewrite String.eqb_refl. auto. }
    rewrite many_snoc, lrun_app, R. cbn [bind lrun lexec].
    destruct (load_ok cs os w (Some 0) [] [] W) as [W1 G1]. { intros p [= <-]. lia. }
    set (w1 := load_class_w w (Some 0) [] []) in *.
    set (cs1 := cs ++ [{| d_super := Some 0; d_methods := [] ++ [] |}]) in *.
    destruct (new_instance_ok cs1 os w1 (S n) W1) as (w2 & l & E2 & W2 & El & Eo & Ll & Ec & _).
    { unfold cs1. rewrite app_length. simpl. lia. }
    set (x := new_instance _ (S n)). assert (Hx : x = Ok w2) by exact E2. rewrite Hx. clear x Hx.
    cbn [bind lexec].
    assert (Hl : l = length (lw_lays w)).
    { unfold w1, load_class_w in Ec. cbn [lw_cur] in Ec.
      assert (length (lw_cur w) = S n) by (destruct W as (_ & X & _); lia).
      rewrite nth_error_app2 in Ec by lia. rewrite H, Nat.sub_diag in Ec. injection Ec as <-. auto. }
    assert (Lo : length (lw_objs w1) = n).
    { destruct W as (_ & _ & _ & _ & _ & X & _). cbn. lia. }
    assert (On : nth_error (lw_objs w2) n = Some l).
    { rewrite Eo, nth_error_app2, Lo, Nat.sub_diag by lia. auto. }
    assert (Ll2 : nth_error (lw_lays w2) l = Some (S n, true)) by (rewrite El; auto).
    assert (Sb : bc_site cs w s ch).
    { destruct St as [[E M]|[St _]]; auto. exfalso. destruct M as (o & c & _ & N & La).
      destruct (wok_obj _ _ _ _ _ W N) as (_ & _ & _ & _ & Hc).
      (* every class understands s *)
      assert (A : forall c, c < length cs -> exists m, finds cs c s m).
      { clear -C3 F0. intros c Hc. destruct c as [|c]; eauto.
        assert (X : forall k i, i < k -> exists d, nth_error (classes [] (many_receivers s k)) (S i) = Some d
              /\ d_super d = Some 0 /\ d_methods d = []).
        { clear. induction k as [|k IH]; intros i Hi; [lia|]. rewrite many_snoc.
          assert (CA : forall a b cs, classes cs (a ++ b) = classes (classes cs a) b).
          { induction a as [|y a IHa]; intros; auto. destruct y; cbn [classes app]; auto. }
          rewrite CA. cbn [classes]. destruct (many_counts s k) as (C1 & _).
          destruct (Nat.eq_dec i k).
          - subst. rewrite nth_error_app2 by lia. rewrite C1, Nat.sub_diag. eexists. split; [reflexivity|auto].
          - destruct (IH i ltac:(lia)) as (d & N & P). exists d. split; auto. apply nth_app_some; auto. }
        destruct (many_counts s n) as (C1 & _). fold cs in C1.
        destruct (X n c ltac:(lia)) as (d & N & P & M). exists 0. eapply finds_up; eauto. rewrite M. auto. }
      destruct (A c Hc) as [m F]. eapply finds_lacks; eauto. }
    assert (Nf : find_node ch l = None).
    { clear -Sb Hl. induction Sb as [|x t [(l1 & c1 & b1 & L1 & N1 & _) _] _ IH]; auto.
      cbn [find_node]. rewrite L1. destruct (Nat.eqb_spec l1 l); auto. exfalso.
      assert (l1 < length (lw_lays w)) by (apply nth_error_Some; congruence). lia. }
    assert (Nl : node_lookup ch l = None).
    { unfold node_lookup. rewrite Nf. destruct ch as [|x t]; auto. inversion Sb as [|? ? [(l1 & ? & ? & L1 & _) _]].
      rewrite L1. auto. }
    unfold bc_send, obj_layout. rewrite On. cbn [bind]. unfold bc_lookup. rewrite Nl. cbn [Nat.leb].
    destruct (layout_lookup_ok _ _ _ _ _ _ s W2 Ll2) as (r & H' & Rl & W' & M).
    rewrite Rl. cbn [bind fst snd].
    assert (F1 : finds cs1 (S n) s 0).
    { eapply finds_up; [unfold cs1; rewrite nth_error_app2 by lia; rewrite C1, Nat.sub_diag; reflexivity| | |].
      - reflexivity.
      - reflexivity.
      - apply finds_app; auto. }
    destruct r as [m|]; [|exfalso; eapply finds_lacks; eauto]. cbn [bind fst snd].
    unfold is_latest. cbn [lw_lays set_heap]. rewrite Ll2. cbn [bind snd dispatch n_target fst].
    eexists. split; [reflexivity|]. cbn. lia.
Qed.

(** * Arguments of doesNotUnderstand:arguments: *)
Lemma upd_repeat_app {A} (x : A) j tail v : upd (repeat x (S j) ++ tail) j v = repeat x j ++ v :: tail.
Proof. induction j as [|j IH]; auto. cbn [repeat app upd] in *. f_equal. exact IH. Qed.

Lemma fill_ok m args : forall a tail rest, wf a -> elems a = repeat VNil (length args) ++ tail ->
  exists st, fill_arguments m (length args) a (rev args ++ rest) = Ok (st, rest)
    /\ wf st /\ elems st = args ++ tail.
Proof.
  induction args as [|v args IH] using rev_ind; intros a tail rest W E.
  - exists a. auto.
  - rewrite app_length, Nat.add_comm in *. cbn [length plus] in *.
    rewrite rev_app_distr. cbn [rev app fill_arguments].
    destruct (set_idx_ok m a (Z.of_nat (length args)) v W) as (u & U & Eu & Wu & _).
    + rewrite (size_elems a W), E, app_length, repeat_length. lia.
    + destruct a; cbn [accepts]; auto; cbn [elems] in E.
      * destruct l; discriminate.
      * destruct l as [|[] ?]; discriminate.
    + rewrite U. cbn [bind].
      destruct (IH (upd_storage u) (v :: tail) rest Wu) as (st & F & Ws & Es).
      { rewrite Eu, Nat2Z.id, E. apply upd_repeat_app. }
      exists st. split; [auto|split; [auto|]]. rewrite Es, <- app_assoc. auto.
Qed.

Lemma dnu_stack_ok m args rest :
  exists st, send_does_not_understand m (length args) (rev args ++ rest) = Ok (st, rest)
    /\ wf st /\ elems st = args.
Proof.
  unfold send_does_not_understand.
  destruct (fill_ok m args (from_size (Z.of_nat (length args))) [] rest) as (st & F & Ws & Es).
  - cbn. lia.
  - cbn. rewrite Nat2Z.id, app_nil_r. auto.
  - exists st. rewrite app_nil_r in Es. auto.
Qed.
