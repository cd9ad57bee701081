(** Proofs about arrays: refinement of the strategies to independent sequences. *)
From Coq Require Import ZArith Bool String List Lia Floats.SpecFloat.
From Verif Require Import Base NumModel ArrModel ArrSpec.
Import ListNotations.
Open Scope Z_scope.
Open Scope list_scope.

(** * lists *)
Lemma upd_length {A} (l : list A) k x : length (upd l k x) = length l.
Proof. revert k; induction l; destruct k; simpl; auto. Qed.

Lemma upd_put_at {A} (l : list A) k x : upd l k x = put_at l k x.
Proof.
  unfold put_at. revert k; induction l; destruct k; simpl; auto.
  f_equal. apply IHl.
Qed.

Lemma nth_error_upd {A} (l : list A) k x j :
  nth_error (upd l k x) j =
  if Nat.eqb k j then (if Nat.ltb k (length l) then Some x else None) else nth_error l j.
Proof.
  revert k j; induction l as [|a l IH]; intros [|k] [|j]; simpl; auto.
  - destruct (Nat.eqb k j); reflexivity.
  - rewrite IH. simpl. reflexivity.
Qed.

Lemma nth_upd_same {A} (l : list A) k x : (k < length l)%nat -> nth_error (upd l k x) k = Some x.
Proof. intros. rewrite nth_error_upd, Nat.eqb_refl. apply Nat.ltb_lt in H. rewrite H. auto. Qed.
Lemma nth_upd_other {A} (l : list A) k x j : k <> j -> nth_error (upd l k x) j = nth_error l j.
Proof. intros. rewrite nth_error_upd. apply Nat.eqb_neq in H. rewrite H. auto. Qed.

Lemma upd_same {A} (l : list A) k x : nth_error l k = Some x -> upd l k x = l.
Proof.
  revert k; induction l as [|a l IH]; intros [|k] H; simpl in *; try congruence.
  f_equal; auto.
Qed.

Lemma upd_map {A B} (f : A -> B) l k x : upd (map f l) k (f x) = map f (upd l k x).
Proof. revert k; induction l; destruct k; simpl; auto. f_equal; auto. Qed.

Lemma repeat_map {A B} (f : A -> B) x n : map f (repeat x n) = repeat (f x) n.
Proof. induction n; simpl; congruence. Qed.

Lemma forallb_map' {A B} (f : A -> B) p l : forallb p (map f l) = forallb (fun x => p (f x)) l.
Proof. induction l; simpl; congruence. Qed.

Lemma py_index_in {A} (l : list A) idx : 0 <= idx < Z.of_nat (length l) ->
  py_index l idx = Some (Z.to_nat idx).
Proof.
  intros H. unfold py_index.
  assert (E : (0 <=? idx) && (idx <? Z.of_nat (length l)) = true).
  { apply andb_true_iff; split; [apply Z.leb_le|apply Z.ltb_lt]; lia. }
  rewrite E. auto.
Qed.

Lemma py_index_lt {A} (l : list A) idx k : py_index l idx = Some k -> (k < length l)%nat.
Proof.
  unfold py_index.
  destruct ((0 <=? idx) && (idx <? Z.of_nat (length l))) eqn:E1.
  - intros H; inversion H; subst. apply andb_true_iff in E1. rewrite Z.leb_le, Z.ltb_lt in E1. lia.
  - destruct ((- Z.of_nat (length l) <=? idx) && (idx <? 0)) eqn:E2; [|discriminate].
    intros H; inversion H; subst. apply andb_true_iff in E2. rewrite Z.leb_le, Z.ltb_lt in E2. lia.
Qed.

Lemma py_get_in {A} m (l : list A) idx : 0 <= idx < Z.of_nat (length l) ->
  exists x, nth_error l (Z.to_nat idx) = Some x /\ py_get m l idx = Ok x.
Proof.
  intros H. unfold py_get. rewrite py_index_in by auto.
  destruct (nth_error l (Z.to_nat idx)) eqn:E.
  - eauto.
  - apply nth_error_None in E. lia.
Qed.

Lemma py_set_in {A} m (l : list A) idx x : 0 <= idx < Z.of_nat (length l) ->
  py_set m l idx x = Ok (upd l (Z.to_nat idx) x).
Proof. intros H. unfold py_set. rewrite py_index_in; auto. Qed.

Lemma map_res_ok {A B} (f : A -> res B) (g : B -> A) l :
  (forall x, In x l -> exists y, f x = Ok y /\ g y = x) ->
  exists r, map_res f l = Ok r /\ map g r = l.
Proof.
  induction l as [|a l IH]; intros H.
  - exists []; auto.
  - destruct (H a) as (y & Hy & Hg); [left; auto|].
    destruct IH as (r & Hr & Hm). { intros; apply H; right; auto. }
    exists (y :: r). simpl. rewrite Hy; simpl. rewrite Hr; simpl. rewrite Hg, Hm. auto.
Qed.

(** * the abstraction function and the storage invariant *)
Definition elems (st : storage) : list value :=
  match st with
  | SEmpty n => repeat VNil (Z.to_nat n)
  | SPartial l _ _ => l
  | SObj l => l
  | SLong l => map VInt l
  | SDouble l => map VDbl l
  | SBool l => map som_bool l
  end.

Fixpoint nils (l : list value) : Z :=
  match l with [] => 0 | v :: t => (if is_nil v then 1 else 0) + nils t end.

Definition conforms (ty : option kind) (v : value) : Prop :=
  v = VNil \/
  match ty with
  | Some KLong => is_int v = true
  | Some KDouble => is_dbl v = true
  | Some KBool => is_boolean v = true
  | _ => False
  end.

Definition wf (st : storage) : Prop :=
  match st with
  | SEmpty n => 0 <= n
  | SPartial l e ty =>
      l <> [] /\ nils l <= e /\ ty <> Some KObj
      /\ (e = nils l -> forall v, In v l -> conforms ty v)
  | _ => True
  end.

Lemma size_elems st : wf st -> get_size st = Z.of_nat (length (elems st)).
Proof.
  destruct st; simpl; intros; rewrite ?map_length, ?repeat_length; auto. lia.
Qed.

Lemma get_idx_ok m st idx : wf st -> 0 <= idx < get_size st ->
  exists v, nth_error (elems st) (Z.to_nat idx) = Some v /\ get_idx m st idx = Ok v.
Proof.
  intros Hwf Hi. destruct st; simpl in *.
  - exists VNil. split.
    + apply nth_error_repeat. lia.
    + assert (E : (0 <=? idx) && (idx <? n) = true).
      { apply andb_true_iff; split; [apply Z.leb_le|apply Z.ltb_lt]; lia. }
      rewrite E. auto.
  - apply py_get_in; auto.
  - apply py_get_in; auto.
  - destruct (py_get_in m l idx Hi) as (x & H1 & H2). exists (VInt x).
    rewrite nth_error_map, H1, H2. auto.
  - destruct (py_get_in m l idx Hi) as (x & H1 & H2). exists (VDbl x).
    rewrite nth_error_map, H1, H2. auto.
  - destruct (py_get_in m l idx Hi) as (x & H1 & H2). exists (som_bool x).
    rewrite nth_error_map, H1, H2. auto.
Qed.

Lemma nils_nonneg l : 0 <= nils l.
Proof. induction l; simpl; [lia|]. destruct (is_nil a); lia. Qed.

Lemma nils_upd l k x old : nth_error l k = Some old ->
  nils (upd l k x) = nils l + (if is_nil x then 1 else 0) - (if is_nil old then 1 else 0).
Proof.
  revert k; induction l as [|a l IH]; intros [|k] H; simpl in *; try discriminate.
  - inversion H; subst. lia.
  - rewrite (IH _ H). lia.
Qed.

Lemma nils_zero l : nils l = 0 -> forall v, In v l -> v <> VNil.
Proof.
  induction l as [|a l IH]; simpl; intros H v Hv; [destruct Hv|].
  pose proof (nils_nonneg l).
  destruct (is_nil a) eqn:E; [lia|].
  destruct Hv as [<-|Hv]; [intros ->; discriminate|]. apply IH; auto; lia.
Qed.

Lemma In_upd {A} (l : list A) k x v : In v (upd l k x) -> v = x \/ In v l.
Proof.
  revert k; induction l as [|a l IH]; intros [|k]; simpl; auto.
  - intros [H|H]; auto.
  - intros [H|H]; auto. destruct (IH _ H); auto.
Qed.

Lemma upd_nonnil {A} (l : list A) k x : l <> [] -> upd l k x <> [].
Proof. destruct l, k; simpl; congruence. Qed.

Lemma conforms_next ty v w : v <> VNil -> w <> VNil -> next_type ty v <> KObj ->
  conforms ty w -> conforms (Some (next_type ty v)) w.
Proof.
  intros Hv Hw Ht [->|C]; [congruence|]. right.
  destruct v, ty as [[]|]; simpl in *; congruence || auto.
Qed.

Lemma conforms_next_self ty v : v <> VNil -> next_type ty v <> KObj ->
  conforms (Some (next_type ty v)) v.
Proof.
  intros Hv Ht. right. destruct v, ty as [[]|]; simpl in *; congruence || auto.
Qed.

Lemma switch_storage k l : k <> KObj ->
  (forall v, In v l -> v <> VNil) -> (forall v, In v l -> conforms (Some k) v) ->
  exists s, new_storage_with_values k l = Ok s /\ elems s = l /\ wf s.
Proof.
  intros Hk Hn Hc. destruct k; simpl.
  - destruct (map_res_ok embedded_integer VInt l) as (r & H1 & H2).
    { intros v Hv. destruct (Hc v Hv) as [->|C]; [exfalso; eapply Hn; eauto|].
      destruct v; simpl in C; try discriminate. exists z; auto. }
    rewrite H1. simpl. exists (SLong r). simpl. auto.
  - destruct (map_res_ok embedded_double VDbl l) as (r & H1 & H2).
    { intros v Hv. destruct (Hc v Hv) as [->|C]; [exfalso; eapply Hn; eauto|].
      destruct v; simpl in C; try discriminate. exists f; auto. }
    rewrite H1. simpl. exists (SDouble r). simpl. auto.
  - exists (SBool (map is_true_object l)). simpl. repeat split; auto.
    rewrite map_map. rewrite <- (map_id l) at 2. apply map_ext_in.
    intros v Hv. destruct (Hc v Hv) as [->|C]; [exfalso; eapply Hn; eauto|].
    destruct v; simpl in C; try discriminate; reflexivity.
  - congruence.
Qed.

Lemma partial_set_ok m l e ty idx v :
  wf (SPartial l e ty) -> 0 <= idx < Z.of_nat (length l) ->
  exists u, partial_set_idx m l e ty idx v = Ok u
    /\ elems (upd_storage u) = upd l (Z.to_nat idx) v /\ wf (upd_storage u)
    /\ forall n, upd_storage u <> SEmpty n.
Proof.
  intros (Hne & Hle & Hty & Hconf) Hi. unfold partial_set_idx.
  destruct (py_get_in m l idx Hi) as (old & Hold & Hget). rewrite Hget; simpl.
  set (k := Z.to_nat idx) in *.
  destruct (is_nil v) eqn:Ev.
  - assert (v = VNil) by (destruct v; simpl in Ev; congruence). subst v.
    destruct (is_nil old) eqn:Eo.
    + assert (old = VNil) by (destruct old; simpl in Eo; congruence). subst old.
      exists (InPlace (SPartial l e ty)). split; [auto|]. simpl.
      assert (E : upd l k VNil = l).
      { apply upd_same; auto. }
      rewrite E. repeat split; auto; congruence.
    + rewrite py_set_in by auto. simpl. fold k. eexists. split; [reflexivity|]. simpl.
      pose proof (nils_upd l k VNil old Hold) as N. rewrite Eo in N. simpl in N.
      split; [auto|]. split; [|congruence]. repeat split; auto using @upd_nonnil; try lia.
      intros Ee w Hw. destruct (In_upd _ _ _ _ Hw) as [->|Hw']; [left; auto|].
      apply Hconf; auto; lia.
  - assert (Hv : v <> VNil) by (intros ->; discriminate).
    rewrite py_set_in by auto. simpl. fold k.
    pose proof (nils_upd l k v old Hold) as N. rewrite Ev in N.
    set (e' := if is_nil old then e - 1 else e) in *.
    assert (He' : nils (upd l k v) <= e').
    { unfold e'. destruct (is_nil old); lia. }
    assert (Heq : e' = nils (upd l k v) -> e = nils l).
    { unfold e'. destruct (is_nil old); lia. }
    destruct (next_type ty v) eqn:Et.
    4: { exists (Fresh (SObj (upd l k v))). simpl. repeat split; auto. congruence. }
    all: assert (Hk : next_type ty v <> KObj) by congruence;
      assert (HC : e' = nils (upd l k v) -> forall w, In w (upd l k v) -> w <> VNil ->
                conforms (Some (next_type ty v)) w)
        by (intros Ee w Hw Hwn; destruct (In_upd _ _ _ _ Hw) as [->|Hw'];
            [apply conforms_next_self; auto
            |apply conforms_next; auto; apply Hconf; auto]);
      destruct (Z.eqb_spec e' 0) as [Z0|NZ].
    all: try (rewrite Et in *;
      assert (Hz : nils (upd l k v) = 0) by (pose proof (nils_nonneg (upd l k v)); lia);
      pose proof (nils_zero _ Hz) as Hnn;
      match goal with |- context [new_storage_with_values ?kk _] =>
        destruct (switch_storage kk (upd l k v)) as (s & S1 & S2 & S3);
          [discriminate|exact Hnn|intros; apply HC; auto; lia|]
      end;
      rewrite S1; cbn [bind]; exists (Fresh s); cbn [upd_storage]; repeat split; auto;
      intros n En; subst s; cbn in S1;
      repeat match type of S1 with
             | (bind ?x _) = _ => destruct x; cbn in S1
             end; discriminate).
    all: rewrite Et in *; eexists; split; [reflexivity|]; simpl;
      split; [reflexivity|]; split; [|congruence];
      repeat split; auto using @upd_nonnil; try congruence;
      intros Ee w Hw; destruct (is_nil w) eqn:Ew;
      [left; destruct w; simpl in Ew; congruence
      |apply HC; auto; intros ->; discriminate].
Qed.

Lemma wf_new_partial n : 0 < n ->
  partial_from_obj_values (repeat VNil (Z.to_nat n))
    = Ok (SPartial (repeat VNil (Z.to_nat n)) n None)
  /\ wf (SPartial (repeat VNil (Z.to_nat n)) n None).
Proof.
  intros H.
  assert (Hn : exists k, Z.to_nat n = S k) by (exists (Nat.pred (Z.to_nat n)); lia).
  destruct Hn as [k Hk]. split.
  - unfold partial_from_obj_values. rewrite Hk. simpl. rewrite repeat_length.
    repeat f_equal. lia.
  - simpl. repeat split.
    + rewrite Hk; simpl; congruence.
    + assert (nils (repeat VNil (Z.to_nat n)) = n); [|lia].
      rewrite <- (Z2Nat.id n) at 2 by lia. generalize (Z.to_nat n).
      clear. induction n; [auto|]. cbn [nils repeat is_nil]. lia.
    + congruence.
    + intros _ v Hv. apply repeat_spec in Hv. left; auto.
Qed.

(** Storing at a valid index. *)
Definition accepts (st : storage) (v : value) : Prop :=
  match st with
  | SDouble _ => is_dbl v = true
  | SBool _ => is_boolean v = true
  | _ => True
  end.

Lemma set_idx_ok m st idx v : wf st -> 0 <= idx < get_size st -> accepts st v ->
  exists u, set_idx m st idx v = Ok u
    /\ elems (upd_storage u) = upd (elems st) (Z.to_nat idx) v /\ wf (upd_storage u)
    /\ (forall st' n, u = InPlace st' -> st = SEmpty n -> st' = SEmpty n).
Proof.
  intros Hwf Hi Hacc. destruct st; simpl in Hi, Hacc.
  - simpl. assert (E : (0 <=? idx) && (idx <? n) = true).
    { apply andb_true_iff; split; [apply Z.leb_le|apply Z.ltb_lt]; lia. }
    rewrite E. destruct (is_nil v) eqn:Ev.
    + assert (v = VNil) by (destruct v; simpl in Ev; congruence). subst v.
      eexists; split; [reflexivity|]. simpl. split; [|split; [auto|]].
      * assert (Hlt : (Z.to_nat idx < Z.to_nat n)%nat) by lia.
        revert Hlt. generalize (Z.to_nat idx) (Z.to_nat n). clear.
        intros k n; revert k; induction n; intros [|k] H; simpl; auto; try lia.
        f_equal. apply IHn. lia.
      * intros. inversion H; subst; auto.
    + destruct (wf_new_partial n ltac:(lia)) as [P1 P2]. rewrite P1. simpl.
      destruct (partial_set_ok m _ _ _ idx v P2) as (u & U1 & U2 & U3 & U4).
      { rewrite repeat_length. lia. }
      rewrite U1. simpl. eexists; split; [reflexivity|]. simpl. repeat split; auto.
      intros; discriminate.
  - destruct (partial_set_ok m _ _ _ idx v Hwf Hi) as (u & U1 & U2 & U3 & U4).
    exists u. repeat split; auto. intros; discriminate.
  - simpl. rewrite py_set_in by auto. simpl. eexists; split; [reflexivity|]. simpl.
    repeat split; auto. intros; discriminate.
  - simpl. destruct v; simpl;
    rewrite py_set_in by (rewrite ?map_length; auto); simpl; eexists; (split; [reflexivity|]); simpl;
    repeat split; auto; try (intros; discriminate).
    symmetry; apply upd_map.
  - simpl. destruct v; simpl in Hacc; try discriminate.
    rewrite py_set_in by auto; simpl; eexists; (split; [reflexivity|]); simpl;
    repeat split; auto; try (intros; discriminate).
    symmetry; apply upd_map.
  - simpl. destruct v; simpl in Hacc; try discriminate; simpl;
    rewrite py_set_in by auto; simpl; eexists; (split; [reflexivity|]); simpl;
    repeat split; auto; try (intros; discriminate).
    + symmetry. apply (upd_map som_bool l _ true).
    + symmetry. apply (upd_map som_bool l _ false).
Qed.

Lemma set_idx_rejects m st idx v : ~ accepts st v -> forall u, set_idx m st idx v <> Ok u.
Proof.
  intros H u. destruct st; simpl in *; try tauto; destruct v; simpl in *; congruence.
Qed.

(** A successful store was accepted. *)
Lemma set_idx_accepted m st idx v u : set_idx m st idx v = Ok u -> accepts st v.
Proof.
  intros H. destruct st; simpl in *; auto; destruct v; simpl in *; congruence || auto.
Qed.

(** * putAll: *)
Lemma set_all_with_value_ok v n : 0 <= n ->
  elems (set_all_with_value v n) = repeat v (Z.to_nat n) /\ wf (set_all_with_value v n).
Proof.
  intros H. destruct v; simpl; unfold zrepeat; rewrite ?repeat_map; auto.
Qed.

Section Block.
  Context {St : Type} (blk : St -> res (value * St)).

  Lemma as_obj_ok todo : forall acc s,
    set_remaining_as_obj blk todo acc s =
    (q <- collect blk todo s ;; Ok (SObj (rev acc ++ fst q), snd q)).
  Proof.
    induction todo; intros acc s; simpl.
    - rewrite app_nil_r. auto.
    - destruct (blk s) as [[v s']|]; simpl; auto. rewrite IHtodo.
      destruct (collect blk todo s') as [[vs s'']|]; simpl; auto.
      rewrite <- app_assoc. auto.
  Qed.

  Lemma as_nil_ok todo : forall done s,
    match set_remaining_as_nil blk todo done s with
    | Ok (st, s') => exists vs, collect blk todo s = Ok (vs, s')
                       /\ elems st = repeat VNil done ++ vs /\ wf st
    | Err e => collect blk todo s = Err e
    end.
  Proof.
    induction todo; intros done s; simpl.
    - exists []. rewrite app_nil_r, Nat2Z.id. repeat split; simpl; auto. lia.
    - destruct (blk s) as [[v s']|]; simpl; auto.
      destruct (is_nil v) eqn:E.
      + assert (v = VNil) by (destruct v; simpl in E; congruence). subst v.
        specialize (IHtodo (S done) s').
        destruct (set_remaining_as_nil blk todo (S done) s') as [[st s'']|].
        * destruct IHtodo as (vs & H1 & H2 & H3). rewrite H1. simpl.
          exists (VNil :: vs). repeat split; auto. rewrite H2.
          change (repeat VNil (S done)) with (VNil :: repeat VNil done).
          rewrite repeat_cons. rewrite <- app_assoc. reflexivity.
        * rewrite IHtodo. auto.
      + rewrite as_obj_ok. destruct (collect blk todo s') as [[vs s'']|]; simpl; auto.
        exists (v :: vs). repeat split; auto.
        simpl. rewrite <- app_assoc. simpl. f_equal.
        clear. induction done; simpl; auto. rewrite IHdone. symmetry. apply repeat_cons.
  Qed.

  Lemma as_long_ok todo : forall acc s,
    match set_remaining_as_long blk todo acc s with
    | Ok (st, s') => exists vs, collect blk todo s = Ok (vs, s')
         /\ wf st /\ length (elems st) = (length acc + length vs)%nat
         /\ (elems st = map VInt (rev acc) ++ vs <-> forallb is_int vs = true)
    | Err e => collect blk todo s = Err e
    end.
  Proof.
    induction todo; intros acc s; simpl.
    - exists []. rewrite app_nil_r. simpl. rewrite map_length, rev_length. repeat split; auto.
    - destruct (blk s) as [[v s']|]; simpl; auto.
      destruct (is_int v) eqn:E.
      + destruct v; simpl in E; try discriminate.
        specialize (IHtodo (z :: acc) s').
        destruct (set_remaining_as_long blk todo (z :: acc) s') as [[st s'']|].
        * destruct IHtodo as (vs & H1 & H2 & H3 & H4). rewrite H1. simpl.
          exists (VInt z :: vs). repeat split; auto; simpl in *; try lia.
          -- rewrite <- H4. simpl. rewrite map_app. simpl. rewrite <- app_assoc. auto.
          -- rewrite <- H4. simpl. rewrite map_app. simpl. rewrite <- app_assoc. auto.
        * rewrite IHtodo. auto.
      + assert (Q : match v with VInt z => set_remaining_as_long blk todo (z :: acc) s'
                     | _ => set_remaining_as_obj blk todo (VInt 0 :: map VInt acc) s' end
                    = set_remaining_as_obj blk todo (VInt 0 :: map VInt acc) s')
          by (destruct v; simpl in E; congruence).
        rewrite Q. rewrite as_obj_ok. destruct (collect blk todo s') as [[vs s'']|]; simpl; auto.
        exists (v :: vs). simpl. rewrite E. simpl.
        rewrite !app_length, rev_length, map_length. simpl.
        repeat split; auto; try lia; try discriminate.
        rewrite <- map_rev, <- app_assoc. simpl. intros H. exfalso.
        apply app_inv_head in H. inversion H; subst. discriminate.
  Qed.

  Lemma as_double_ok fill todo : forall acc s,
    match set_remaining_as_double blk fill todo acc s with
    | Ok (st, s') => exists vs, collect blk todo s = Ok (vs, s')
         /\ wf st /\ length (elems st) = (length acc + length vs)%nat
         /\ (exists tl, elems st = map VDbl (rev acc) ++ tl)
         /\ (elems st = map VDbl (rev acc) ++ vs <-> forallb is_dbl vs = true)
    | Err e => collect blk todo s = Err e
    end.
  Proof.
    induction todo; intros acc s; simpl.
    - exists []. rewrite app_nil_r. simpl. rewrite map_length, rev_length. repeat split; auto.
      exists []. rewrite app_nil_r. auto.
    - destruct (blk s) as [[v s']|]; simpl; auto.
      destruct (is_dbl v) eqn:E.
      + destruct v; simpl in E; try discriminate.
        specialize (IHtodo (f :: acc) s').
        destruct (set_remaining_as_double blk fill todo (f :: acc) s') as [[st s'']|].
        * destruct IHtodo as (vs & H1 & H2 & H3 & (tl & Htl) & H4). rewrite H1. simpl.
          exists (VDbl f :: vs). repeat split; auto; simpl in *; try lia.
          -- exists (VDbl f :: tl). rewrite Htl, map_app, <- app_assoc. auto.
          -- rewrite <- H4. simpl. rewrite map_app. simpl. rewrite <- app_assoc. auto.
          -- rewrite <- H4. simpl. rewrite map_app. simpl. rewrite <- app_assoc. auto.
        * rewrite IHtodo. auto.
      + assert (Q : match v with VDbl f => set_remaining_as_double blk fill todo (f :: acc) s'
                     | _ => set_remaining_as_obj blk todo (VDbl fill :: map VDbl acc) s' end
                    = set_remaining_as_obj blk todo (VDbl fill :: map VDbl acc) s')
          by (destruct v; simpl in E; congruence).
        rewrite Q. rewrite as_obj_ok. destruct (collect blk todo s') as [[vs s'']|]; simpl; auto.
        exists (v :: vs). simpl. rewrite E. simpl.
        rewrite !app_length, rev_length, map_length. simpl.
        repeat split; auto; try lia; try discriminate.
        * rewrite <- map_rev, <- app_assoc. simpl. eexists; reflexivity.
        * rewrite <- map_rev, <- app_assoc. simpl. intros H. exfalso.
          apply app_inv_head in H. inversion H; subst. discriminate.
  Qed.

  (** putAll: with a block evaluates it exactly [size] times, threading the state, and
      stores the results exactly when they are uniform. *)
  Lemma set_all_with_block_ok size s : 0 <= size ->
    match set_all_with_block blk size s with
    | Ok (st, s') => exists vs, collect blk (Z.to_nat size) s = Ok (vs, s')
         /\ wf st /\ length (elems st) = length vs
         /\ (elems st = vs <-> uniform_results vs = true)
    | Err e => collect blk (Z.to_nat size) s = Err e
    end.
  Proof.
    intros Hs. unfold set_all_with_block.
    destruct (Z.eqb_spec size 0) as [->|Hz].
    - exists []. simpl. repeat split; auto.
    - assert (L : (size <? 0) = false) by (apply Z.ltb_ge; lia). rewrite L.
      assert (Hn : exists k, Z.to_nat size = S k) by (exists (Nat.pred (Z.to_nat size)); lia).
      destruct Hn as [k Hk]. rewrite Hk. simpl.
      destruct (blk s) as [[v s']|]; simpl; auto.
      destruct v; simpl.
      + pose proof (as_nil_ok k 1 s') as H.
        destruct (set_remaining_as_nil blk k 1 s') as [[st s'']|].
        * destruct H as (vs & H1 & H2 & H3). rewrite H1. simpl. exists (VNil :: vs).
          simpl in H2. rewrite H2. repeat split; auto.
        * rewrite H; auto.
      + match goal with |- context [set_remaining_as_double blk ?f k [?f] s'] => set (g := f) end.
        pose proof (as_double_ok g k [g] s') as H.
        destruct (set_remaining_as_double blk g k [g] s') as [[st s'']|].
        * destruct H as (vs & H1 & H2 & H3 & (tl & Htl) & H4). rewrite H1. simpl.
          exists (VTrue :: vs). repeat split; auto; try discriminate.
          rewrite Htl. simpl. discriminate.
        * rewrite H; auto.
      + match goal with |- context [set_remaining_as_double blk ?f k [?f] s'] => set (g := f) end.
        pose proof (as_double_ok g k [g] s') as H.
        destruct (set_remaining_as_double blk g k [g] s') as [[st s'']|].
        * destruct H as (vs & H1 & H2 & H3 & (tl & Htl) & H4). rewrite H1. simpl.
          exists (VFalse :: vs). repeat split; auto; try discriminate.
          rewrite Htl. simpl. discriminate.
        * rewrite H; auto.
      + pose proof (as_long_ok k [z] s') as H.
        destruct (set_remaining_as_long blk k [z] s') as [[st s'']|].
        * destruct H as (vs & H1 & H2 & H3 & H4). rewrite H1. simpl.
          exists (VInt z :: vs). simpl in *. repeat split; auto; try tauto.
        * rewrite H; auto.
      + rewrite as_obj_ok. destruct (collect blk k s') as [[vs s'']|]; simpl; auto.
        eexists; repeat split; auto.
      + pose proof (as_double_ok (S754_zero false) k [f] s') as H.
        destruct (set_remaining_as_double blk (S754_zero false) k [f] s') as [[st s'']|].
        * destruct H as (vs & H1 & H2 & H3 & _ & H4). rewrite H1. simpl.
          exists (VDbl f :: vs). simpl in *. repeat split; auto; try tauto.
        * rewrite H; auto.
      + rewrite as_obj_ok. destruct (collect blk k s') as [[vs s'']|]; simpl; auto.
        eexists; repeat split; auto.
      + rewrite as_obj_ok. destruct (collect blk k s') as [[vs s'']|]; simpl; auto.
        eexists; repeat split; auto.
      + rewrite as_obj_ok. destruct (collect blk k s') as [[vs s'']|]; simpl; auto.
        eexists; repeat split; auto.
  Qed.
End Block.

Lemma collect_pop n : forall vs h, length vs = n -> collect pop_block n (h, vs) = Ok (vs, (h, [])).
Proof.
  induction n; intros [|v vs] h H; simpl in *; try discriminate; auto.
  rewrite IHn by lia. auto.
Qed.

(** * from_values *)
Lemma determine_go l : forall e d g b,
  (fix go l is_empty only_double only_long only_bool :=
    match l with
    | [] => if (is_empty : bool) then None
            else if (only_double : bool) then Some KDouble
            else if (only_long : bool) then Some KLong
            else if (only_bool : bool) then Some KBool
            else Some KObj
    | v :: t =>
        match v with
        | VNil => go t is_empty only_double only_long only_bool
        | VInt _ => go t false false only_long false
        | VDbl _ => go t false only_double false false
        | VTrue | VFalse => go t false false false only_bool
        | _ => go t false false false false
        end
    end) l e d g b =
  let nn := filter (fun v => negb (isnil v)) l in
  if e && forallb isnil l then None
  else if d && forallb is_dbl nn then Some KDouble
  else if g && forallb is_int nn then Some KLong
  else if b && forallb is_boolean nn then Some KBool
  else Some KObj.
Proof.
  induction l as [|v l IH]; intros e d g b.
  - simpl. rewrite !andb_true_r. auto.
  - destruct v; cbn [filter isnil negb forallb]; rewrite IH; simpl;
      rewrite ?andb_false_r, ?andb_true_r; simpl; auto;
      destruct e, d, g, b; simpl; auto.
Qed.

Lemma determine_spec l :
  determine_strategy l =
  let nn := filter (fun v => negb (isnil v)) l in
  if forallb isnil l then None
  else if forallb is_dbl nn then Some KDouble
  else if forallb is_int nn then Some KLong
  else if forallb is_boolean nn then Some KBool
  else Some KObj.
Proof. unfold determine_strategy. rewrite determine_go. reflexivity. Qed.

Lemma filter_all {A} (p : A -> bool) l : forallb p l = true -> filter p l = l.
Proof.
  induction l; simpl; auto. intros H. apply andb_true_iff in H as [-> H2]. f_equal; auto.
Qed.
Lemma filter_none_nil l : filter (fun v => negb (isnil v)) l = [] -> forallb isnil l = true.
Proof. induction l; simpl; auto. destruct (isnil a); simpl; auto. discriminate. Qed.
Lemma all_nil_repeat l : forallb isnil l = true -> l = repeat VNil (length l).
Proof.
  induction l; simpl; auto. intros H. apply andb_true_iff in H as [H1 H2].
  destruct a; try discriminate. f_equal; auto.
Qed.

Lemma from_values_ok vs : no_nil_mix vs = true ->
  exists st, from_values vs = Ok st /\ elems st = vs /\ wf st.
Proof.
  intros H. unfold from_values. rewrite determine_spec. cbv zeta.
  destruct (forallb isnil vs) eqn:En.
  - eexists; split; [reflexivity|]. simpl. rewrite Nat2Z.id. split; [|lia].
    symmetry; apply all_nil_repeat; auto.
  - unfold no_nil_mix in H. cbv zeta in H.
    destruct (filter (fun v => negb (isnil v)) vs) as [|w ws] eqn:Ef.
    { apply filter_none_nil in Ef. congruence. }
    destruct (forallb (fun v => negb (isnil v)) vs) eqn:Enn.
    + (* no nil at all *)
      pose proof (filter_all _ _ Enn) as Hf. rewrite Ef in Hf. rewrite Hf.
      clear Ef Hf w ws H.
      assert (NN : forall v, In v vs -> v <> VNil).
      { intros v Hv ->. rewrite forallb_forall in Enn. apply Enn in Hv. discriminate. }
      assert (C : forall k p, (forall v, p v = true -> conforms (Some k) v) ->
                forallb p vs = true -> forall v, In v vs -> conforms (Some k) v).
      { intros k p Hp Hall v Hv. rewrite forallb_forall in Hall. apply Hp, Hall; auto. }
      destruct (forallb is_dbl vs) eqn:Ed.
      { apply switch_storage; auto; try discriminate.
        eapply C; [|exact Ed]. intros v Hv; right; auto. }
      destruct (forallb is_int vs) eqn:Ei.
      { apply switch_storage; auto; try discriminate.
        eapply C; [|exact Ei]. intros v Hv; right; auto. }
      destruct (forallb is_boolean vs) eqn:Eb.
      { apply switch_storage; auto; try discriminate.
        eapply C; [|exact Eb]. intros v Hv; right; auto. }
      eexists; split; [reflexivity|]; simpl; auto.
    + simpl in H. apply negb_true_iff in H.
      apply orb_false_iff in H as [H Hb]. apply orb_false_iff in H as [Hi Hd].
      cbn [forallb] in *. rewrite Hi, Hd, Hb.
      eexists; split; [reflexivity|]; simpl; auto.
Qed.

Lemma from_values_iff vs :
  (exists st, from_values vs = Ok st /\ elems st = vs) <-> no_nil_mix vs = true.
Proof.
  split.
  2: { intros H. destruct (from_values_ok vs H) as (st & H1 & H2 & _). eauto. }
  intros (st & H1 & H2).
  destruct (no_nil_mix vs) eqn:E; auto. exfalso.
  unfold no_nil_mix in E. cbv zeta in E.
  destruct (filter (fun v => negb (isnil v)) vs) as [|w ws] eqn:Ef; [discriminate|].
  apply orb_false_iff in E as [En E]. apply negb_false_iff in E.
  assert (Hin : exists v, In v vs /\ v = VNil).
  { clear - En. induction vs as [|a vs IH]; simpl in En; [discriminate|].
    apply andb_false_iff in En as [En|En].
    - destruct a; simpl in En; try discriminate. exists VNil; simpl; auto.
    - destruct (IH En) as (v & Hv & ->). exists VNil; simpl; auto. }
  destruct Hin as (v & Hv & ->).
  unfold from_values in H1. rewrite determine_spec in H1. cbv zeta in H1. rewrite Ef in H1.
  destruct (forallb isnil vs) eqn:Ea.
  { assert (Hw : In w (filter (fun v => negb (isnil v)) vs)) by (rewrite Ef; left; auto).
    apply filter_In in Hw as [Hw1 Hw2]. rewrite forallb_forall in Ea.
    rewrite (Ea _ Hw1) in Hw2. discriminate. }
  assert (F1 : forall r, map_res embedded_integer vs <> Ok r).
  { clear - Hv. induction vs as [|a vs IH]; [destruct Hv|]. intros r; simpl.
    destruct Hv as [->|Hv]; [discriminate|].
    destruct (embedded_integer a); simpl; [|discriminate].
    specialize (IH Hv). destruct (map_res embedded_integer vs); [exfalso; eapply IH; eauto|discriminate]. }
  assert (F2 : forall r, map_res embedded_double vs <> Ok r).
  { clear - Hv. induction vs as [|a vs IH]; [destruct Hv|]. intros r; simpl.
    destruct Hv as [->|Hv]; [discriminate|].
    destruct (embedded_double a); simpl; [|discriminate].
    specialize (IH Hv). destruct (map_res embedded_double vs); [exfalso; eapply IH; eauto|discriminate]. }
  destruct (forallb is_dbl (w :: ws)) eqn:Ed.
  { simpl in H1. destruct (map_res embedded_double vs) eqn:E2; [|discriminate].
    eapply F2; eauto. }
  destruct (forallb is_int (w :: ws)) eqn:Ei.
  { simpl in H1. destruct (map_res embedded_integer vs) eqn:E2; [|discriminate].
    eapply F1; eauto. }
  destruct (forallb is_boolean (w :: ws)) eqn:Eb.
  { simpl in H1. inversion H1; subst st. simpl in H2.
    rewrite <- H2 in Hv. apply in_map_iff in Hv as (b & Hb & _). destruct b; discriminate. }
  discriminate.
Qed.

(** * copies *)
Lemma copy_ok st : wf st -> exists u, copy_storage st = Ok u
  /\ elems (upd_storage u) = elems st /\ wf (upd_storage u)
  /\ (forall st', u = InPlace st' -> exists n, st = SEmpty n).
Proof.
  intros H. destruct st; simpl in *.
  - eexists; split; [reflexivity|]. simpl. repeat split; auto. eauto.
  - destruct H as (Hne & Hle & Hty & Hc).
    destruct l as [|v l]; [congruence|]. simpl.
    eexists; split; [reflexivity|]. simpl. repeat split; auto; try congruence.
    + clear. assert (nils l <= Z.of_nat (length l)).
      { induction l; simpl; [lia|]. cbn [nils length]. destruct (is_nil a); lia. }
      destruct (is_nil v); lia.
    + intros E w Hw. left.
      assert (G : forall l', Z.of_nat (length l') = nils l' -> forall w, In w l' -> w = VNil).
      { clear. intros l'.
        assert (B : forall l', nils l' <= Z.of_nat (length l')).
        { induction l'0; simpl; [lia|]. cbn [nils length]. destruct (is_nil a); lia. }
        induction l' as [|a l' IH]; intros E w Hw; [destruct Hw|].
        cbn [nils length] in E. pose proof (B l').
        destruct (is_nil a) eqn:Ea; [|lia].
        destruct Hw as [<-|Hw]; [destruct a; simpl in Ea; congruence|].
        apply IH; auto; lia. }
      apply (G (v :: l)); auto.
  - eexists; split; [reflexivity|]. simpl. repeat split; auto; intros; discriminate.
  - eexists; split; [reflexivity|]. simpl. repeat split; auto; intros; discriminate.
  - eexists; split; [reflexivity|]. simpl. repeat split; auto; intros; discriminate.
  - eexists; split; [reflexivity|]. simpl. repeat split; auto; intros; discriminate.
Qed.

Definition accepts_extend (st : storage) (v : value) : Prop :=
  match st with
  | SLong _ => is_int v = true
  | SDouble _ => is_dbl v = true
  | SBool _ => is_boolean v = true
  | _ => True
  end.

Lemma nils_app a b : nils (a ++ b) = nils a + nils b.
Proof. induction a; simpl; auto. rewrite IHa. lia. Qed.

Lemma upd_app_last {A} (l : list A) x y : upd (l ++ [x]) (length l) y = l ++ [y].
Proof. induction l; simpl; congruence. Qed.

Lemma extend_ok m st v : wf st -> accepts_extend st v ->
  exists st', copy_and_extend_with m st v = Ok st' /\ elems st' = elems st ++ [v] /\ wf st'.
Proof.
  intros Hwf Ha. destruct st; simpl in *.
  - destruct (is_nil v) eqn:E.
    + destruct v; try discriminate. eexists; split; [reflexivity|]. simpl. split; [|lia].
      replace (Z.to_nat (n + 1)) with (S (Z.to_nat n)) by lia.
      simpl. apply repeat_cons.
    + assert (Q : match v with VNil => Ok (SEmpty (n + 1))
                  | _ => l <- py_set m (zrepeat VNil (n + 1)) (-1) v ;; Ok (SObj l) end
                  = (l <- py_set m (zrepeat VNil (n + 1)) (-1) v ;; Ok (SObj l)))
        by (destruct v; simpl in E; congruence).
      rewrite Q. unfold py_set, py_index, zrepeat. rewrite repeat_length.
      assert (E1 : (0 <=? -1) && (-1 <? Z.of_nat (Z.to_nat (n + 1))) = false) by reflexivity.
      rewrite E1.
      assert (E2 : (- Z.of_nat (Z.to_nat (n + 1)) <=? -1) && (-1 <? 0) = true).
      { apply andb_true_iff; split; [apply Z.leb_le|reflexivity]; lia. }
      rewrite E2. simpl. eexists; split; [reflexivity|]. simpl. split; auto.
      replace (Z.to_nat (Z.of_nat (Z.to_nat (n + 1)) + -1)) with (length (repeat VNil (Z.to_nat n)))
        by (rewrite repeat_length; lia).
      replace (Z.to_nat (n + 1)) with (S (Z.to_nat n)) by lia.
      change (repeat VNil (S (Z.to_nat n))) with (VNil :: repeat VNil (Z.to_nat n)). rewrite (repeat_cons (Z.to_nat n) VNil). apply upd_app_last.
  - destruct Hwf as (Hne & Hle & Hty & Hc).
    destruct (partial_set_ok m (l ++ [VNil]) (empty_elements + 1) ty (Z.of_nat (length l)) v)
      as (u & U1 & U2 & U3 & _).
    { simpl. rewrite nils_app. simpl. repeat split; auto; try lia.
      - destruct l; simpl; congruence.
      - intros E w Hw. apply in_app_iff in Hw as [Hw|[<-|[]]]; [|left; auto].
        apply Hc; auto; lia. }
    { rewrite app_length. simpl. lia. }
    rewrite U1. simpl. eexists; split; [reflexivity|]. split; auto.
    rewrite U2, Nat2Z.id. apply upd_app_last.
  - eexists; split; [reflexivity|]; simpl; auto.
  - destruct v; try discriminate. eexists; split; [reflexivity|]; simpl.
    rewrite map_app; auto.
  - destruct v; try discriminate. eexists; split; [reflexivity|]; simpl.
    rewrite map_app; auto.
  - destruct v; try discriminate; (eexists; split; [reflexivity|]; simpl;
    rewrite map_app; auto).
Qed.

Lemma extend_accepted m st v st' : copy_and_extend_with m st v = Ok st' -> accepts_extend st v.
Proof. destruct st; simpl; auto; destruct v; simpl; congruence || auto. Qed.

(** * the heap invariant *)
Definition sharable (st : storage) : Prop := exists n, st = SEmpty n.

Record inv (h : aheap) (A : arrays) : Prop := {
  inv_len : length (arrs h) = length A;
  inv_elems : forall a c, nth_error (arrs h) a = Some c ->
     exists st, nth_error (cells h) c = Some st /\ wf st /\ nth_error A a = Some (elems st);
  inv_share : forall a b c st, a <> b ->
     nth_error (arrs h) a = Some c -> nth_error (arrs h) b = Some c ->
     nth_error (cells h) c = Some st -> sharable st
}.

Lemma inv_storage h A a : inv h A -> (a < length A)%nat ->
  exists c st, nth_error (arrs h) a = Some c /\ nth_error (cells h) c = Some st
    /\ storage_of h a = Some st /\ wf st /\ nth_error A a = Some (elems st)
    /\ elements A a = elems st.
Proof.
  intros I Ha. destruct (nth_error (arrs h) a) as [c|] eqn:E.
  - destruct (inv_elems _ _ I a c E) as (st & H1 & H2 & H3).
    exists c, st. unfold storage_of. rewrite E. repeat split; auto.
    unfold elements. apply nth_error_nth. auto.
  - apply nth_error_None in E. rewrite (inv_len _ _ I) in E. lia.
Qed.

Lemma nth_error_app_last {A} (l : list A) x i y :
  nth_error (l ++ [x]) i = Some y ->
  (nth_error l i = Some y /\ (i < length l)%nat) \/ (i = length l /\ y = x).
Proof.
  intros H. destruct (Nat.lt_ge_cases i (length l)).
  - left. rewrite nth_error_app1 in H by auto. auto.
  - right. rewrite nth_error_app2 in H by auto.
    destruct (i - length l)%nat eqn:E; simpl in H.
    + inversion H. split; auto. lia.
    + destruct n; discriminate.
Qed.

Lemma inv_alloc h A st : inv h A -> wf st -> inv (fst (alloc h st)) (A ++ [elems st]).
Proof.
  intros I W. constructor; simpl.
  - rewrite !app_length, (inv_len _ _ I). auto.
  - intros a c H. apply nth_error_app_last in H as [[H Hlt]|[-> ->]].
    + destruct (inv_elems _ _ I a c H) as (s & H1 & H2 & H3). exists s.
      split; [|split; auto].
      * rewrite nth_error_app1; auto. apply nth_error_Some. congruence.
      * rewrite nth_error_app1; auto. apply nth_error_Some. congruence.
    + exists st. rewrite nth_error_app2, Nat.sub_diag by auto. split; [auto|]. split; auto.
      rewrite (inv_len _ _ I), nth_error_app2, Nat.sub_diag by auto. auto.
  - intros a b c s Hab Ha Hb Hs.
    assert (B : forall x, nth_error (arrs h) x = Some (length (cells h)) -> False).
    { intros x Hx. destruct (inv_elems _ _ I x _ Hx) as (s' & H1 & _).
      assert (nth_error (cells h) (length (cells h)) = None) by (apply nth_error_None; auto).
      congruence. }
    apply nth_error_app_last in Ha as [[Ha La]|[-> ->]];
    apply nth_error_app_last in Hb as [[Hb Lb]|[-> Eb]].
    + apply (inv_share _ _ I a b c s Hab Ha Hb).
      destruct (inv_elems _ _ I a c Ha) as (s' & H1 & _).
      rewrite nth_error_app1 in Hs; auto. apply nth_error_Some. congruence.
    + subst. exfalso; eauto.
    + exfalso; eauto.
    + congruence.
Qed.

Lemma put_at_length {A} (l : list A) k x : length (put_at l k x) = length l.
Proof. rewrite <- upd_put_at. apply upd_length. Qed.

Lemma inv_fresh h A a st : inv h A -> (a < length A)%nat -> wf st ->
  inv (apply_update h a (Fresh st)) (put_at A a (elems st)).
Proof.
  intros I Ha W. rewrite <- upd_put_at. constructor; simpl.
  - rewrite !upd_length. apply (inv_len _ _ I).
  - intros b c H. rewrite nth_error_upd in H.
    destruct (Nat.eqb_spec a b) as [<-|Hne].
    + rewrite (inv_len _ _ I) in H. apply Nat.ltb_lt in Ha as Hl. rewrite Hl in H.
      inversion H; subst. exists st.
      rewrite nth_error_app2, Nat.sub_diag by auto. split; [auto|]. split; auto.
      apply nth_upd_same; auto.
    + destruct (inv_elems _ _ I b c H) as (s & H1 & H2 & H3). exists s.
      split; [|split; auto].
      * rewrite nth_error_app1; auto. apply nth_error_Some. congruence.
      * rewrite nth_upd_other; auto.
  - intros x y c s Hxy Hx Hy Hs.
    assert (B : forall x, nth_error (arrs h) x = Some (length (cells h)) -> False).
    { intros z Hz. destruct (inv_elems _ _ I z _ Hz) as (s' & H1 & _).
      assert (nth_error (cells h) (length (cells h)) = None) by (apply nth_error_None; auto).
      congruence. }
    rewrite nth_error_upd in Hx, Hy. rewrite (inv_len _ _ I) in Hx, Hy.
    apply Nat.ltb_lt in Ha. rewrite Ha in Hx, Hy.
    destruct (Nat.eqb_spec a x), (Nat.eqb_spec a y).
    + congruence.
    + inversion Hx; subst. exfalso; eauto.
    + inversion Hy; subst. exfalso; eauto.
    + apply (inv_share _ _ I x y c s Hxy Hx Hy).
      destruct (inv_elems _ _ I x c Hx) as (s' & H1 & _).
      rewrite nth_error_app1 in Hs; auto. apply nth_error_Some. congruence.
Qed.

Lemma inv_inplace h A a c st st' : inv h A -> (a < length A)%nat ->
  nth_error (arrs h) a = Some c -> nth_error (cells h) c = Some st ->
  (forall n, st = SEmpty n -> st' = SEmpty n) -> wf st' ->
  inv (apply_update h a (InPlace st')) (put_at A a (elems st')).
Proof.
  intros I Ha Hc Hst Hsh W. rewrite <- upd_put_at. simpl. rewrite Hc.
  assert (Lc : (c < length (cells h))%nat) by (apply nth_error_Some; congruence).
  constructor; simpl.
  - rewrite upd_length. apply (inv_len _ _ I).
  - intros b d Hb. destruct (Nat.eq_dec a b) as [<-|Hne].
    + assert (d = c) by congruence. subst d. exists st'.
      rewrite nth_upd_same by auto. split; [auto|]. split; auto. apply nth_upd_same; auto.
    + destruct (inv_elems _ _ I b d Hb) as (s & H1 & H2 & H3).
      destruct (Nat.eq_dec c d) as [<-|Hcd].
      * assert (s = st) by congruence. subst s.
        destruct (inv_share _ _ I a b c st Hne Hc Hb Hst) as [n Hn].
        rewrite (Hsh n Hn). exists (SEmpty n).
        rewrite nth_upd_same by auto. subst st. split; auto. split; auto.
        rewrite nth_upd_other; auto.
      * exists s. rewrite nth_upd_other by auto. split; [auto|]. split; auto.
        rewrite nth_upd_other; auto.
  - intros x y d s Hxy Hx Hy Hs.
    destruct (Nat.eq_dec c d) as [<-|Hcd].
    + rewrite nth_upd_same in Hs by auto. inversion Hs; subst s.
      destruct (inv_share _ _ I x y c st Hxy Hx Hy Hst) as [n Hn].
      exists n. auto.
    + rewrite nth_upd_other in Hs by auto. apply (inv_share _ _ I x y d s); auto.
Qed.

(** Sharing the storage of an all-nil array keeps the invariant. *)
Lemma inv_share_copy h A a c n : inv h A -> nth_error (arrs h) a = Some c ->
  nth_error (cells h) c = Some (SEmpty n) -> 0 <= n ->
  inv {| cells := cells h; arrs := arrs h ++ [c] |} (A ++ [repeat VNil (Z.to_nat n)]).
Proof.
  intros I Ha Hc Hn. constructor; simpl.
  - rewrite !app_length, (inv_len _ _ I). auto.
  - intros b d H. apply nth_error_app_last in H as [[H Hlt]|[-> ->]].
    + destruct (inv_elems _ _ I b d H) as (s & H1 & H2 & H3). exists s. repeat split; auto.
      rewrite nth_error_app1; auto. rewrite <- (inv_len _ _ I). auto.
    + exists (SEmpty n). repeat split; auto.
      rewrite (inv_len _ _ I), nth_error_app2, Nat.sub_diag by auto. auto.
  - intros x y d s Hxy Hx Hy Hs.
    apply nth_error_app_last in Hx as [[Hx Lx]|[-> ->]];
    apply nth_error_app_last in Hy as [[Hy Ly]|[-> Ey]].
    + apply (inv_share _ _ I x y d s); auto.
    + subst d. exists n. congruence.
    + exists n. congruence.
    + congruence.
Qed.

(** * one step *)
Lemma storage_of_app h A a st : storage_of h a = Some st ->
  with_array (A := A) h a = fun f => f st.
Proof. intros H. unfold with_array. rewrite H. reflexivity. Qed.

Definition op_accepted (h : aheap) (op : aop) : Prop :=
  match op with
  | OAtPut a i v => forall st, storage_of h a = Some st -> accepts st v
  | OExtend a v => forall st, storage_of h a = Some st -> accepts_extend st v
  | _ => True
  end.

Lemma exec_inv m h A op : inv h A -> valid_op A op -> op_accepted h op ->
  exists h', exec m h op = Ok h' /\ inv h' (spec_step A op).
Proof.
  intros I V Acc. destruct op; simpl in V, Acc; simpl exec.
  - (* new *) simpl. eexists; split; [reflexivity|].
    pose proof (inv_alloc h A (from_size (Z.of_nat n)) I) as H. simpl in H.
    rewrite Nat2Z.id in H. apply H. lia.
  - (* at:put: *) destruct V as [Ha Hi].
    destruct (inv_storage h A a I Ha) as (c & st & Hc & Hst & Hso & W & HA & HE).
    unfold prim_at_put. simpl. unfold with_array. rewrite Hso.
    rewrite HE in *.
    destruct (set_idx_ok m st (i - 1) v W) as (u & U1 & U2 & U3 & U4).
    { rewrite size_elems by auto. lia. }
    { apply Acc; auto. }
    rewrite U1. simpl. eexists; split; [reflexivity|].
    rewrite <- (upd_put_at (elems st)), <- U2.
    destruct u; simpl upd_storage in *.
    + eapply inv_inplace; eauto.
    + apply inv_fresh; auto.
  - (* putAll: value *)
    destruct (inv_storage h A a I V) as (c & st & Hc & Hst & Hso & W & HA & HE).
    unfold prim_put_all, with_array. rewrite Hso. simpl spec_step. rewrite HE.
    assert (Gen : forall st0, elems st0 = repeat v (length (elems st)) -> wf st0 ->
              exists h', Ok (apply_update h a (Fresh st0)) = Ok h'
                /\ inv h' (put_at A a (repeat v (length (elems st))))).
    { intros st0 E0 W0. eexists; split; [reflexivity|]. rewrite <- E0. apply inv_fresh; auto. }
    destruct (set_all_with_value_ok v (get_size st)) as [S1 S2].
    { rewrite size_elems by auto. lia. }
    rewrite size_elems in S1 by auto. rewrite Nat2Z.id in S1.
    rewrite size_elems in S2 by auto. rewrite <- (size_elems st W) in S1, S2.
    assert (Noop : elems st = repeat v (length (elems st)) ->
              exists h', Ok h = Ok h' /\ inv h' (put_at A a (repeat v (length (elems st))))).
    { intros E. exists h. split; auto. rewrite <- E, <- upd_put_at.
      assert (E2 : upd A a (elems st) = A).
      { apply upd_same; auto. }
      rewrite E2. auto. }
    destruct st; try (apply Gen; assumption).
    simpl in *. destruct (is_nil v) eqn:Ev.
    + apply Noop. destruct v; try discriminate. rewrite repeat_length. auto.
    + destruct (Z.ltb_spec 0 n).
      * apply Gen; auto.
      * apply Noop. replace (Z.to_nat n) with O by lia. reflexivity.
  - (* putAll: block *) destruct V as (Ha & Hl & Hu).
    destruct (inv_storage h A a I Ha) as (c & st & Hc & Hst & Hso & W & HA & HE).
    unfold prim_put_all_block, with_array. simpl fst. rewrite Hso.
    pose proof (set_all_with_block_ok pop_block (get_size st) (h, vs)) as B.
    rewrite size_elems in B by auto. rewrite Nat2Z.id in B. specialize (B ltac:(lia)).
    rewrite <- HE, <- Hl in B. rewrite collect_pop in B by auto.
    rewrite size_elems, <- HE, <- Hl by auto.
    destruct (set_all_with_block pop_block (Z.of_nat (length vs)) (h, vs)) as [[st' s']|]; [|discriminate].
    destruct B as (vs' & B1 & B2 & B3 & B4). inversion B1; subst vs' s'.
    simpl. eexists; split; [reflexivity|].
    apply B4 in Hu. rewrite <- Hu. apply inv_fresh; auto.
  - (* copy *)
    destruct (inv_storage h A a I V) as (c & st & Hc & Hst & Hso & W & HA & HE).
    unfold prim_copy, with_array. rewrite Hso.
    destruct (copy_ok st W) as (u & U1 & U2 & U3 & U4). rewrite U1. simpl.
    rewrite HE. destruct u; simpl in *.
    + rewrite Hc. simpl. eexists; split; [reflexivity|].
      destruct (U4 _ eq_refl) as [n ->]. simpl.
      eapply inv_share_copy; eauto.
    + simpl. eexists; split; [reflexivity|].
      rewrite <- U2. apply (inv_alloc h A st0 I U3).
  - (* extend *)
    destruct (inv_storage h A a I V) as (c & st & Hc & Hst & Hso & W & HA & HE).
    unfold array_copy_and_extend, with_array. rewrite Hso.
    destruct (extend_ok m st v W (Acc _ Hso)) as (st' & S1 & S2 & S3). rewrite S1. simpl.
    eexists; split; [reflexivity|]. rewrite HE, <- S2. apply (inv_alloc h A st' I S3).
  - (* from values *)
    destruct (from_values_ok vs V) as (st & S1 & S2 & S3). rewrite S1. simpl.
    eexists; split; [reflexivity|]. rewrite <- S2. apply (inv_alloc h A st I S3).
  - simpl. eexists; split; [reflexivity|]. apply (inv_alloc h A (SLong zs) I). simpl; auto.
  - simpl. eexists; split; [reflexivity|]. apply (inv_alloc h A (SObj vs) I). simpl; auto.
Qed.

Lemma exec_accepted m h op h' : exec m h op = Ok h' -> op_accepted h op.
Proof.
  destruct op; simpl; auto.
  - unfold prim_at_put, with_array. simpl. intros H st E. rewrite E in H.
    destruct (set_idx m st (i - 1) v) eqn:S; [|discriminate].
    eapply set_idx_accepted; eauto.
  - unfold array_copy_and_extend, with_array. intros H st E. rewrite E in H.
    destruct (copy_and_extend_with m st v) eqn:S; [|discriminate].
    eapply extend_accepted; eauto.
Qed.

Lemma run_inv m ops : forall h A h', inv h A -> valid_history A ops ->
  run m h ops = Ok h' -> inv h' (spec_run A ops).
Proof.
  induction ops as [|op ops IH]; intros h A h' I V R; simpl in *.
  - inversion R; subst; auto.
  - destruct V as [V1 V2]. destruct (exec m h op) as [h1|] eqn:E; [|discriminate]. simpl in R.
    destruct (exec_inv m h A op I V1 (exec_accepted m h op h1 E)) as (h2 & E2 & I2).
    rewrite E in E2. inversion E2; subst. eapply IH; eauto.
Qed.

Lemma inv_empty : inv empty_heap [].
Proof.
  constructor; simpl; auto.
  - intros [|a] c H; discriminate.
  - intros [|a] b c st Hab H; discriminate.
Qed.

(** * observations *)
Lemma observe m h A a : inv h A -> (a < length A)%nat ->
  prim_length h a = Ok (VInt (Z.of_nat (length (elements A a))))
  /\ forall i, 1 <= i <= Z.of_nat (length (elements A a)) ->
       exists v, nth_error (elements A a) (Z.to_nat (i - 1)) = Some v
         /\ prim_at m h a (VInt i) = Ok v.
Proof.
  intros I Ha. destruct (inv_storage h A a I Ha) as (c & st & Hc & Hst & Hso & W & HA & HE).
  rewrite HE. split.
  - unfold prim_length, with_array. rewrite Hso, size_elems; auto.
  - intros i Hi. unfold prim_at, with_array. simpl. rewrite Hso.
    destruct (get_idx_ok m st (i - 1) W) as (v & V1 & V2).
    { rewrite size_elems by auto. lia. }
    eauto.
Qed.

Lemma history_refines m ops h : valid_history [] ops -> run m empty_heap ops = Ok h ->
  forall a, (a < length (spec_run [] ops))%nat ->
    prim_length h a = Ok (VInt (Z.of_nat (length (elements (spec_run [] ops) a))))
    /\ forall i, 1 <= i <= Z.of_nat (length (elements (spec_run [] ops) a)) ->
       exists v, nth_error (elements (spec_run [] ops) a) (Z.to_nat (i - 1)) = Some v
         /\ prim_at m h a (VInt i) = Ok v.
Proof.
  intros V R a Ha. apply observe; auto. eapply run_inv; eauto. apply inv_empty.
Qed.

(** Storing succeeds whenever the elements neither are all doubles nor all booleans. *)
Lemma accepted_from_elems st v : store_accepted (elems st) v -> accepts st v.
Proof.
  intros [H1 H2]. destruct st; simpl in *; auto.
  - apply H1. rewrite forallb_map'. simpl. clear. induction l; auto.
  - apply H2. rewrite forallb_map'. apply forallb_forall. intros []; auto.
Qed.

Lemma store_succeeds m ops h a i v :
  valid_history [] ops -> run m empty_heap ops = Ok h ->
  valid_op (spec_run [] ops) (OAtPut a i v) ->
  store_accepted (elements (spec_run [] ops) a) v ->
  exists h', prim_at_put m h a (VInt i) v = Ok h'.
Proof.
  intros V R Vo Hs.
  assert (I : inv h (spec_run [] ops)) by (eapply run_inv; eauto; apply inv_empty).
  destruct (exec_inv m h _ (OAtPut a i v) I Vo) as (h' & E & _); [|eauto].
  simpl. intros st Hst. destruct Vo as [Ha Hi].
  destruct (inv_storage h _ a I Ha) as (c & st' & _ & _ & Hso & _ & _ & HE).
  assert (st' = st) by congruence. subst. rewrite HE in Hs.
  apply accepted_from_elems; auto.
Qed.

(** Out of range accesses. *)
Lemma out_of_range m ops h a i :
  valid_history [] ops -> run m empty_heap ops = Ok h -> (a < length (spec_run [] ops))%nat ->
  let n := Z.of_nat (length (elements (spec_run [] ops) a)) in
  (i < 1 - n \/ n < i) ->
  (forall v, prim_at m h a (VInt i) <> Ok v) /\
  (forall v h', prim_at_put m h a (VInt i) v <> Ok h').
Proof.
  intros V R Ha n Hi.
  assert (I : inv h (spec_run [] ops)) by (eapply run_inv; eauto; apply inv_empty).
  destruct (inv_storage h _ a I Ha) as (c & st & _ & _ & Hso & W & _ & HE).
  subst n. rewrite HE in Hi. unfold prim_at, prim_at_put, with_array. simpl. rewrite Hso.
  assert (PI : forall A (l : list A), length l = length (elems st) -> py_index l (i - 1) = None).
  { intros A0 l Hl. unfold py_index. rewrite Hl.
    destruct ((0 <=? i - 1) && (i - 1 <? Z.of_nat (length (elems st)))) eqn:E1.
    { apply andb_true_iff in E1. rewrite Z.leb_le, Z.ltb_lt in E1. lia. }
    destruct ((- Z.of_nat (length (elems st)) <=? i - 1) && (i - 1 <? 0)) eqn:E2; auto.
    apply andb_true_iff in E2. rewrite Z.leb_le, Z.ltb_lt in E2. lia. }
  assert (PG : forall A (l : list A) x, length l = length (elems st) -> py_get m l (i - 1) <> Ok x).
  { intros A0 l x Hl. unfold py_get. rewrite PI by auto. destruct m; discriminate. }
  assert (PS : forall A (l : list A) x y, length l = length (elems st) -> py_set m l (i - 1) x <> Ok y).
  { intros A0 l x y Hl. unfold py_set. rewrite PI by auto. destruct m; discriminate. }
  assert (PGb : forall A B (l : list A) (f : A -> res B) x, length l = length (elems st) ->
            bind (py_get m l (i - 1)) f <> Ok x).
  { intros A0 B l f x Hl. unfold bind. destruct (py_get m l (i - 1)) eqn:E; [|discriminate].
    exfalso; eapply PG; eauto. }
  assert (PSb : forall A B (l : list A) x (f : list A -> res B) y, length l = length (elems st) ->
            bind (py_set m l (i - 1) x) f <> Ok y).
  { intros A0 B l x f y Hl. unfold bind. destruct (py_set m l (i - 1) x) eqn:E; [|discriminate].
    exfalso; eapply PS; eauto. }
  assert (EmptyF : forall n, st = SEmpty n -> (0 <=? i - 1) && (i - 1 <? n) = false).
  { intros n ->. cbn [elems wf] in Hi, W. rewrite repeat_length in Hi. apply andb_false_iff.
    rewrite Z.leb_gt, Z.ltb_ge. lia. }
  split.
  - intros v. destruct st; simpl in *; try (apply PG; reflexivity);
      try (apply PGb; rewrite map_length; reflexivity).
    rewrite (EmptyF _ eq_refl). discriminate.
  - intros v h'.
    assert (S : forall u, set_idx m st (i - 1) v <> Ok u).
    { intros u. destruct st; simpl in *.
      - rewrite (EmptyF _ eq_refl). discriminate.
      - unfold partial_set_idx. apply PGb; auto.
      - apply PSb; auto.
      - destruct v; apply PSb; rewrite ?map_length; auto.
      - destruct v; try discriminate. apply PSb; rewrite ?map_length; auto.
      - destruct v; try discriminate; apply PSb; rewrite ?map_length; auto. }
    destruct (set_idx m st (i - 1) v) eqn:E; [|discriminate]. exfalso; eapply S; eauto.
Qed.

(** * iteration *)
Lemma do_indexes_ok {St} (blk : value -> St -> res St) n : forall i s,
  do_indexes_loop blk n i s =
  fold_left (fun r k => s <- r ;; blk (VInt (i + Z.of_nat k)) s) (seq 0 n) (Ok s).
Proof.
  induction n; intros i s; simpl; auto.
  rewrite Z.add_0_r. rewrite <- seq_shift.
  destruct (blk (VInt i) s) as [s'|e]; simpl.
  - rewrite IHn. rewrite <- (map_id (seq 0 n)) at 1.
    generalize (Ok s'). generalize (seq 0 n). induction l as [|k l IHl]; simpl; auto.
    intros r. rewrite <- IHl. f_equal. destruct r; simpl; auto. f_equal. f_equal. lia.
  - generalize (map S (seq 0 n)). induction l; simpl; auto.
Qed.

Lemma fold_err {A S} (f : S -> A -> res S) e l :
  fold_left (fun r v => s <- r ;; f s v) l (Err e) = Err e.
Proof. induction l; simpl; auto. Qed.

Lemma do_loop_ok {St} m (cur : St -> aheap) a (blk : value -> St -> res St) n : forall i s,
  do_loop m cur a blk n i s =
  fold_left (fun r k => s <- r ;; v <- prim_at m (cur s) a (VInt (i + 1 + Z.of_nat k)) ;; blk v s)
    (seq 0 n) (Ok s).
Proof.
  induction n; intros i s; simpl; auto.
  rewrite <- seq_shift.
  unfold prim_at at 2. cbn [embedded_integer bind].
  replace (i + 1 + 0 - 1) with i by lia.
  destruct (with_array (cur s) a (fun st => get_idx m st i)) as [v|e]; simpl.
  2: { symmetry. apply (fold_err (fun s k => v <- prim_at m (cur s) a (VInt (i + 1 + Z.of_nat k)) ;; blk v s)). }
  destruct (blk v s) as [s'|e]; simpl.
  2: { symmetry. apply (fold_err (fun s k => v <- prim_at m (cur s) a (VInt (i + 1 + Z.of_nat k)) ;; blk v s)). }
  rewrite IHn. generalize (Ok s'). generalize (seq 0 n).
  induction l as [|k l IHl]; intros r; cbn [map fold_left]; auto.
  rewrite <- IHl. f_equal. destruct r; simpl; auto.
  replace (i + 1 + 1 + Z.of_nat k) with (i + 1 + Z.of_nat (S k)) by lia. auto.
Qed.

(** When the block leaves the elements of the array alone. *)
Lemma do_elements {St} m (cur : St -> aheap) a (blk : value -> St -> res St) :
  (forall v s s' i, blk v s = Ok s' -> prim_at m (cur s') a i = prim_at m (cur s) a i) ->
  forall es i s,
  (forall k, (k < length es)%nat ->
     prim_at m (cur s) a (VInt (i + 1 + Z.of_nat k)) = Ok (nth k es VNil)) ->
  do_loop m cur a blk (length es) i s = fold_left (fun r v => s <- r ;; blk v s) es (Ok s).
Proof.
  intros Hp es. induction es as [|v es IH]; intros i s H; simpl; auto.
  pose proof (H O ltac:(simpl; lia)) as H0. unfold prim_at in H0. cbn [embedded_integer bind] in H0.
  change (Z.of_nat 0) with 0 in H0. replace (i + 1 + 0 - 1) with i in H0 by lia.
  rewrite H0. simpl. destruct (blk v s) as [s'|e] eqn:B.
  - simpl. apply IH. intros k Hk. rewrite (Hp v s s' _ B).
    replace (i + 1 + 1 + Z.of_nat k) with (i + 1 + Z.of_nat (S k)) by lia.
    rewrite H by (simpl; lia). reflexivity.
  - simpl. symmetry. apply (fold_err (fun s v => blk v s)).
Qed.

(** * independence of arrays in the specification *)
Lemma elements_app A l x : (x < length A)%nat -> elements (A ++ l) x = elements A x.
Proof. intros. unfold elements. apply app_nth1; auto. Qed.

Lemma elements_put_other (A : arrays) a l x : a <> x -> elements (put_at A a l) x = elements A x.
Proof.
  intros H. rewrite <- upd_put_at. unfold elements.
  pose proof (nth_upd_other A a l x H) as E.
  destruct (nth_error A x) eqn:E2.
  - rewrite (nth_error_nth _ _ _ E), (nth_error_nth _ _ _ E2). auto.
  - rewrite !nth_overflow; auto; apply nth_error_None; auto.
Qed.

Lemma spec_step_length A op : (length A <= length (spec_step A op))%nat.
Proof. destruct op; simpl; rewrite ?app_length, ?put_at_length; simpl; lia. Qed.

Lemma spec_step_other A op x : (x < length A)%nat -> ~ writes op x ->
  elements (spec_step A op) x = elements A x.
Proof.
  intros H W. destruct op; simpl in *; try (apply elements_app; auto; fail);
    apply elements_put_other; auto.
Qed.

Lemma spec_run_other ops : forall A x, (x < length A)%nat -> (forall op, In op ops -> ~ writes op x) ->
  (x < length (spec_run A ops))%nat /\ elements (spec_run A ops) x = elements A x.
Proof.
  induction ops as [|op ops IH]; intros A x H W; simpl; auto.
  pose proof (spec_step_length A op).
  destruct (IH (spec_step A op) x) as [H1 H2]; [lia|intros; apply W; right; auto|].
  split; auto. rewrite H2. apply spec_step_other; auto. apply W; left; auto.
Qed.

Lemma spec_run_app ops1 : forall A ops2, spec_run A (ops1 ++ ops2) = spec_run (spec_run A ops1) ops2.
Proof. induction ops1; simpl; auto. Qed.

Lemma valid_app ops1 : forall A ops2, valid_history A (ops1 ++ ops2) ->
  valid_history A ops1 /\ valid_history (spec_run A ops1) ops2.
Proof.
  induction ops1; simpl; intros A ops2 H; auto. destruct H as [H1 H2].
  apply IHops1 in H2. tauto.
Qed.

Lemma new_copy_independent m ops1 op es ops2 h x :
  let A1 := spec_run [] ops1 in
  spec_step A1 op = A1 ++ [es] ->
  valid_history [] (ops1 ++ op :: ops2) ->
  run m empty_heap (ops1 ++ op :: ops2) = Ok h ->
  (x <= length A1)%nat ->
  (forall o, In o ops2 -> ~ writes o x) ->
  let es' := if Nat.eqb x (length A1) then es else elements A1 x in
  prim_length h x = Ok (VInt (Z.of_nat (length es')))
  /\ forall i, 1 <= i <= Z.of_nat (length es') ->
       prim_at m h x (VInt i) = Ok (nth (Z.to_nat (i - 1)) es' VNil).
Proof.
  intros A1 Hop V R Hx W es'.
  assert (L : (x < length (spec_step A1 op))%nat) by (rewrite Hop, app_length; simpl; lia).
  assert (E : elements (spec_step A1 op) x = es').
  { rewrite Hop. unfold es'. destruct (Nat.eqb_spec x (length A1)) as [->|Hne].
    - unfold elements. rewrite app_nth2, Nat.sub_diag by auto. auto.
    - apply elements_app. lia. }
  destruct (spec_run_other ops2 _ x L W) as [L2 E2].
  assert (SR : spec_run [] (ops1 ++ op :: ops2) = spec_run (spec_step A1 op) ops2)
    by (rewrite spec_run_app; auto).
  pose proof (history_refines m _ h V R x) as H. rewrite SR in H.
  destruct (H L2) as [H1 H2]. rewrite E2, E in H1, H2. split; auto.
  intros i Hi. destruct (H2 i Hi) as (v & Hv & Hat). rewrite Hat. f_equal.
  symmetry. apply nth_error_nth. auto.
Qed.

(** * out-of-range accesses that do read or write *)
Lemma wraps m ops h a i : valid_history [] ops -> run m empty_heap ops = Ok h ->
  (a < length (spec_run [] ops))%nat ->
  let es := elements (spec_run [] ops) a in
  forallb isnil es = false -> 1 - Z.of_nat (length es) <= i <= 0 ->
  prim_at m h a (VInt i) = Ok (nth (Z.to_nat (i - 1 + Z.of_nat (length es))) es VNil).
Proof.
  intros V R Ha es Hn Hi.
  assert (I : inv h (spec_run [] ops)) by (eapply run_inv; eauto; apply inv_empty).
  destruct (inv_storage h _ a I Ha) as (c & st & _ & _ & Hso & W & _ & HE).
  subst es. rewrite HE in *. unfold prim_at, with_array. simpl. rewrite Hso.
  assert (PI : forall A (l : list A), length l = length (elems st) ->
             py_index l (i - 1) = Some (Z.to_nat (i - 1 + Z.of_nat (length (elems st))))).
  { intros A0 l Hl. unfold py_index. rewrite Hl.
    destruct ((0 <=? i - 1) && (i - 1 <? Z.of_nat (length (elems st)))) eqn:E1.
    { apply andb_true_iff in E1. rewrite Z.leb_le, Z.ltb_lt in E1. lia. }
    destruct ((- Z.of_nat (length (elems st)) <=? i - 1) && (i - 1 <? 0)) eqn:E2.
    - f_equal. f_equal. lia.
    - apply andb_false_iff in E2. rewrite Z.leb_gt, Z.ltb_ge in E2. lia. }
  set (k := Z.to_nat (i - 1 + Z.of_nat (length (elems st)))) in *.
  assert (Hk : (k < length (elems st))%nat) by (unfold k; lia). clearbody k.
  assert (PG : forall A (l : list A) (f : A -> value), map f l = elems st ->
             exists x, py_get m l (i - 1) = Ok x /\ nth k (elems st) VNil = f x).
  { intros A0 l f Hl. unfold py_get.
    assert (Ll : length l = length (elems st)) by (rewrite <- Hl, map_length; auto).
    rewrite PI by auto. destruct (nth_error l k) eqn:E.
    - exists a0. split; auto. rewrite <- Hl. apply nth_error_nth. rewrite nth_error_map, E. auto.
    - apply nth_error_None in E. lia. }
  destruct st; simpl in *.
  - exfalso. assert (H0 : forallb isnil (repeat VNil (Z.to_nat n)) = true); [|congruence].
    apply forallb_forall. intros y Hy. apply repeat_spec in Hy. subst; auto.
  - destruct (PG _ l (fun x => x) (map_id l)) as (x & -> & ->). auto.
  - destruct (PG _ l (fun x => x) (map_id l)) as (x & -> & ->). auto.
  - destruct (PG _ l VInt eq_refl) as (x & -> & ->). auto.
  - destruct (PG _ l VDbl eq_refl) as (x & -> & ->). auto.
  - destruct (PG _ l som_bool eq_refl) as (x & -> & ->). auto.
Qed.

(** * putAll: *)
Lemma put_all_value m ops h a v : valid_history [] ops -> run m empty_heap ops = Ok h ->
  (a < length (spec_run [] ops))%nat ->
  let n := Z.of_nat (length (elements (spec_run [] ops) a)) in
  exists h', prim_put_all h a v = Ok h' /\ prim_length h' a = Ok (VInt n)
    /\ forall i, 1 <= i <= n -> prim_at m h' a (VInt i) = Ok v.
Proof.
  intros V R Ha n.
  assert (I : inv h (spec_run [] ops)) by (eapply run_inv; eauto; apply inv_empty).
  destruct (exec_inv m h _ (OPutAll a v) I Ha Logic.I) as (h' & E & I').
  exists h'. split; [exact E|]. simpl in I'.
  set (A := spec_run [] ops) in *.
  assert (HE : elements (put_at A a (repeat v (length (elements A a)))) a = repeat v (length (elements A a))).
  { unfold elements at 1. apply nth_error_nth. rewrite <- upd_put_at. apply nth_upd_same; auto. }
  destruct (observe m h' _ a I') as [O1 O2]. { rewrite put_at_length. auto. }
  rewrite HE, repeat_length in O1, O2. split; auto.
  intros i Hi. destruct (O2 i Hi) as (w & Hw & Hat). rewrite Hat.
  apply nth_error_In, repeat_spec in Hw. subst; auto.
Qed.

Lemma reads_iff m st vs h a : wf st -> storage_of h a = Some st -> length (elems st) = length vs ->
  elems st = vs <->
  (forall i, 1 <= i <= Z.of_nat (length vs) ->
     prim_at m h a (VInt i) = Ok (nth (Z.to_nat (i - 1)) vs VNil)).
Proof.
  intros W Hso L.
  assert (G : forall i, 1 <= i <= Z.of_nat (length vs) ->
            prim_at m h a (VInt i) = Ok (nth (Z.to_nat (i - 1)) (elems st) VNil)).
  { intros i Hi. unfold prim_at, with_array. simpl. rewrite Hso.
    destruct (get_idx_ok m st (i - 1) W) as (v & V1 & V2). { rewrite size_elems by auto. lia. }
    rewrite V2. f_equal. symmetry. apply nth_error_nth; auto. }
  split.
  - intros <-. auto.
  - intros H. apply nth_ext with (d := VNil) (d' := VNil); auto. intros k Hk.
    specialize (G (Z.of_nat k + 1) ltac:(lia)). specialize (H (Z.of_nat k + 1) ltac:(lia)).
    replace (Z.to_nat (Z.of_nat k + 1 - 1)) with k in * by lia. congruence.
Qed.

Lemma collect_mono {St} (blk : St -> res (value * St)) (sz : St -> nat) :
  (forall s1 v s2, blk s1 = Ok (v, s2) -> (sz s1 <= sz s2)%nat) ->
  forall n s vs s', collect blk n s = Ok (vs, s') -> (sz s <= sz s')%nat /\ length vs = n.
Proof.
  intros H. induction n; intros s vs s' C; simpl in C.
  - inversion C; subst; auto.
  - destruct (blk s) as [[v s1]|] eqn:B; simpl in C; [|discriminate].
    destruct (collect blk n s1) as [[ws s2]|] eqn:C2; simpl in C; [|discriminate].
    inversion C; subst. apply IHn in C2 as [C2 C3]. apply H in B. simpl. split; [lia|auto].
Qed.

Lemma put_all_block {St} m (cur : St -> aheap) put a (blk : St -> res (value * St)) s ops :
  (forall s h, cur (put s h) = h) ->
  valid_history [] ops -> run m empty_heap ops = Ok (cur s) ->
  (a < length (spec_run [] ops))%nat ->
  (forall s1 v s2, blk s1 = Ok (v, s2) -> (length (arrs (cur s1)) <= length (arrs (cur s2)))%nat) ->
  let n := length (elements (spec_run [] ops) a) in
  match prim_put_all_block cur put a blk s with
  | Ok s' => exists vs s1, collect blk n s = Ok (vs, s1)
       /\ prim_length (cur s') a = Ok (VInt (Z.of_nat n))
       /\ (uniform_results vs = true <->
           forall i, 1 <= i <= Z.of_nat n ->
             prim_at m (cur s') a (VInt i) = Ok (nth (Z.to_nat (i - 1)) vs VNil))
  | Err e => collect blk n s = Err e
  end.
Proof.
  intros Hcp V R Ha Hgrow n.
  assert (I : inv (cur s) (spec_run [] ops)) by (eapply run_inv; eauto; apply inv_empty).
  destruct (inv_storage _ _ a I Ha) as (c & st & Hc & _ & Hso & W & _ & HE).
  unfold prim_put_all_block, with_array. rewrite Hso.
  pose proof (set_all_with_block_ok blk (get_size st) s) as B.
  rewrite size_elems in B |- * by auto. rewrite Nat2Z.id in B. specialize (B ltac:(lia)).
  assert (En : length (elems st) = n) by (unfold n; rewrite HE; auto). rewrite En in *.
  destruct (set_all_with_block blk (Z.of_nat n) s) as [[st' s1]|]; simpl; auto.
  destruct B as (vs & B1 & B2 & B3 & B4).
  destruct (collect_mono blk (fun s => length (arrs (cur s))) Hgrow _ _ _ _ B1) as [G1 G2].
  exists vs, s1. rewrite Hcp. split; [auto|].
  assert (S2 : storage_of (apply_update (cur s1) a (Fresh st')) a = Some st').
  { unfold storage_of. simpl. rewrite nth_upd_same.
    - rewrite nth_error_app2, Nat.sub_diag; auto.
    - assert (a < length (arrs (cur s)))%nat by (apply nth_error_Some; congruence).
      cbv beta in G1. lia. }
  simpl in S2. split.
  - unfold prim_length, with_array. rewrite S2, size_elems by auto. congruence.
  - rewrite <- B4. rewrite <- G2. apply reads_iff; auto.
Qed.
