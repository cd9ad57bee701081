(** Proofs about objects on their way through arrays and fields (C71). *)
From Coq Require Import ZArith Bool String List Lia.
From Verif Require Import Base NumModel ArrModel IdModel IdSpec.
From Verif Require TxtModel.
Import ListNotations.
Open Scope list_scope.
Open Scope Z_scope.

(** * References *)
Lemma place_eqb_eq : forall p q, place_eqb p q = true <-> p = q.
Proof.
  intros p q; destruct p, q; cbn; try (split; congruence); rewrite Nat.eqb_eq; split; congruence.
Qed.
Lemma place_eqb_refl : forall p, place_eqb p p = true.
Proof. intro p; now apply place_eqb_eq. Qed.

Definition single (v : value) : bool := match v with VNil | VTrue | VFalse => true | _ => false end.
Definition ok (mk rb : list value) (sy : list (string * box)) (b : box) : Prop :=
  match at_ b with
  | Sing 0 => what b = VNil
  | Sing 1 => what b = VTrue
  | Sing 2 => what b = VFalse
  | Sing _ => False
  | Made n => nth_error mk n = Some (what b) /\ single (what b) = false
  | Reboxed n => nth_error rb n = Some (what b) /\ number (what b) = true
  end /\ (forall t, what b = VSym t -> find t sy = Some b).

Lemma ok_place : forall mk rb sy a b, ok mk rb sy a -> ok mk rb sy b -> at_ a = at_ b -> a = b.
Proof.
  intros mk rb sy [p v] [q w] [Ha _] [Hb _] E; cbn in *; subst q.
  f_equal. destruct p as [[|[|[|]]]|n|n]; cbn in *; try congruence; try contradiction.
  - destruct Ha, Hb; congruence.
  - destruct Ha, Hb; congruence.
Qed.
Lemma ok_nil : forall mk rb sy b, ok mk rb sy b -> what b = VNil -> b = nil_.
Proof.
  intros mk rb sy [p v] [H _] E; cbn in *; subst v; unfold nil_.
  destruct p as [[|[|[|]]]|n|n]; cbn in *; try congruence; try contradiction; destruct H; discriminate.
Qed.
Lemma ok_true : forall mk rb sy b, ok mk rb sy b -> what b = VTrue -> b = true_.
Proof.
  intros mk rb sy [p v] [H _] E; cbn in *; subst v; unfold true_.
  destruct p as [[|[|[|]]]|n|n]; cbn in *; try congruence; try contradiction; destruct H; discriminate.
Qed.
Lemma ok_false : forall mk rb sy b, ok mk rb sy b -> what b = VFalse -> b = false_.
Proof.
  intros mk rb sy [p v] [H _] E; cbn in *; subst v; unfold false_.
  destruct p as [[|[|[|]]]|n|n]; cbn in *; try congruence; try contradiction; destruct H; discriminate.
Qed.
Lemma nth_error_grow : forall A (l m : list A) n x, nth_error l n = Some x -> nth_error (l ++ m) n = Some x.
Proof.
  intros. rewrite nth_error_app1; [assumption|]. apply nth_error_Some; congruence.
Qed.
Lemma find_grow : forall t sy more b, find t sy = Some b -> find t (sy ++ more) = Some b.
Proof.
  intros t; induction sy as [|[u c] sy IH]; cbn; intros; [discriminate|].
  destruct (String.eqb u t); auto.
Qed.
Lemma ok_grow : forall mk rb sy mk' rb' sy' b,
  ok mk rb sy b -> ok (mk ++ mk') (rb ++ rb') (sy ++ sy') b.
Proof.
  intros mk rb sy mk' rb' sy' b [H S]; split.
  - destruct (at_ b) as [[|[|[|]]]|n|n]; auto; destruct H; split; auto using nth_error_grow.
  - intros t E; apply find_grow; auto.
Qed.
Lemma ok_nil_ : forall mk rb sy, ok mk rb sy nil_.
Proof. split; cbn; [reflexivity|discriminate]. Qed.
Lemma ok_true_ : forall mk rb sy, ok mk rb sy true_.
Proof. split; cbn; [reflexivity|discriminate]. Qed.
Lemma ok_false_ : forall mk rb sy, ok mk rb sy false_.
Proof. split; cbn; [reflexivity|discriminate]. Qed.
Lemma ok_bool_ : forall mk rb sy x, ok mk rb sy (bool_ x).
Proof. intros mk rb sy []; [apply ok_true_|apply ok_false_]. Qed.
Lemma ok_made : forall mk rb sy v, single v = false -> (forall t, v <> VSym t) ->
  ok (mk ++ [v]) rb sy (Box (Made (length mk)) v).
Proof.
  intros; split; cbn.
  - split; [|assumption]. rewrite nth_error_app2, Nat.sub_diag; [reflexivity|lia].
  - intros t E; exfalso; eapply H0; eauto.
Qed.
Lemma ok_rebox : forall mk rb sy v, number v = true -> ok mk (snd (rebox v rb)) sy (fst (rebox v rb)).
Proof.
  intros mk rb sy v E; unfold rebox; split; cbn.
  - split; [|assumption]. rewrite nth_error_app2, Nat.sub_diag; [reflexivity|lia].
  - intros t F; subst v; discriminate.
Qed.

(** * Lists *)
Lemma py_index_length : forall A B (l : list A) (l' : list B) i, length l = length l' -> py_index l i = py_index l' i.
Proof. intros; unfold py_index; now rewrite H. Qed.
Lemma Forall2_length : forall A B (R : A -> B -> Prop) l l', Forall2 R l l' -> length l = length l'.
Proof. induction 1; cbn; congruence. Qed.
Lemma Forall2_nth : forall A B (R : A -> B -> Prop) l l' n x,
  Forall2 R l l' -> nth_error l n = Some x -> exists y, nth_error l' n = Some y /\ R x y.
Proof.
  intros A B R l l' n x H; revert n; induction H; intros n E; [now destruct n|].
  destruct n; cbn in *; [inversion E; subst; eauto|auto].
Qed.
Lemma Forall2_upd : forall A B (R : A -> B -> Prop) l l' n x y,
  Forall2 R l l' -> R x y -> Forall2 R (upd l n x) (upd l' n y).
Proof.
  intros A B R l l' n x y H; revert n; induction H; intros n E; cbn; [constructor|].
  destruct n; constructor; auto.
Qed.
Lemma Forall_upd : forall A (P : A -> Prop) l n x, Forall P l -> P x -> Forall P (upd l n x).
Proof.
  intros A P l n x H; revert n; induction H; intros n E; cbn; [constructor|].
  destruct n; constructor; auto.
Qed.
Lemma upd_length : forall A (l : list A) n x, length (upd l n x) = length l.
Proof. induction l; destruct n; cbn; intros; auto. Qed.
Lemma py_get_rel : forall A B (R : A -> B -> Prop) m l l' i x,
  Forall2 R l l' -> py_get m l i = Ok x -> exists y, py_get Hosted l' i = Ok y /\ R x y.
Proof.
  intros A B R m l l' i x H E; unfold py_get in *.
  rewrite <- (py_index_length _ _ l l' i (Forall2_length _ _ _ _ _ H)).
  destruct (py_index l i) as [k|]; [|destruct m; discriminate].
  destruct (nth_error l k) eqn:En; [|destruct m; discriminate]. inversion E; subst.
  destruct (Forall2_nth _ _ _ _ _ _ _ H En) as (y & Ey & Hy). exists y; rewrite Ey; auto.
Qed.
Lemma py_set_rel : forall A B (R : A -> B -> Prop) m l l' i x y l1,
  Forall2 R l l' -> R x y -> py_set m l i x = Ok l1 -> exists l2, py_set Hosted l' i y = Ok l2 /\ Forall2 R l1 l2.
Proof.
  intros A B R m l l' i x y l1 H E F; unfold py_set in *.
  rewrite <- (py_index_length _ _ l l' i (Forall2_length _ _ _ _ _ H)).
  destruct (py_index l i) as [k|]; [|destruct m; discriminate].
  inversion F; subst. eexists; split; [reflexivity|]. now apply Forall2_upd.
Qed.
Lemma py_get_nth : forall A m (l : list A) i x, py_get m l i = Ok x ->
  exists k, py_index l i = Some k /\ nth_error l k = Some x.
Proof.
  intros A m l i x E; unfold py_get in E.
  destruct (py_index l i) as [k|]; [|destruct m; discriminate].
  destruct (nth_error l k) eqn:En; [|destruct m; discriminate]. inversion E; subst; eauto.
Qed.
Lemma py_get_in : forall A m (l : list A) i x, py_get m l i = Ok x -> In x l.
Proof. intros. apply py_get_nth in H as (k & _ & H). eapply nth_error_In; eauto. Qed.
Lemma py_set_upd : forall A m (l : list A) i x l1, py_set m l i x = Ok l1 ->
  exists k, py_index l i = Some k /\ l1 = upd l k x.
Proof.
  intros A m l i x l1 E; unfold py_set in E.
  destruct (py_index l i) as [k|]; [|destruct m; discriminate]. inversion E; eauto.
Qed.
Lemma py_set_Forall : forall A (P : A -> Prop) m l i x l1,
  Forall P l -> P x -> py_set m l i x = Ok l1 -> Forall P l1.
Proof. intros. apply py_set_upd in H1 as (k & _ & ->). now apply Forall_upd. Qed.
Lemma py_index_0 : forall A (l : list A) n i, length l = Z.to_nat n -> (0 <=? i) && (i <? n) = true ->
  py_index l i = Some (Z.to_nat i).
Proof.
  intros A l n i E H. unfold py_index. rewrite E.
  apply andb_true_iff in H as [H1 H2]. apply Z.leb_le in H1. apply Z.ltb_lt in H2.
  rewrite Z2Nat.id by lia. replace (0 <=? i) with true by (symmetry; now apply Z.leb_le).
  replace (i <? n) with true by (symmetry; now apply Z.ltb_lt). reflexivity.
Qed.
Lemma nth_error_repeat_ : forall A (x : A) n k, (k < n)%nat -> nth_error (repeat x n) k = Some x.
Proof. induction n; intros; [lia|]. destruct k; cbn; [reflexivity|]. apply IHn; lia. Qed.

(** * Same objects *)
Definition same (b b' : box) : Prop := what b = what b' /\ (number (what b) = false -> b = b').
Lemma same_refl : forall b, same b b.
Proof. split; auto. Qed.
Lemma same_whats : forall v b b', what b = v -> number v = true -> what b' = v -> same b b'.
Proof. intros; split; [congruence|]. intro; congruence. Qed.
Lemma same_num : forall b b', what b = what b' -> number (what b) = true -> same b b'.
Proof. intros; split; [assumption|congruence]. Qed.

(** The state of an array that is being filled *)
Definition count (l : list box) : Z := fold_right (fun b n => (if is_nil_ b then 1 else 0) + n) 0 l.
Definition fits (ty : option kind) (b : box) : Prop :=
  is_nil_ b = true \/
  match ty with
  | Some KLong => exists z, what b = VInt z
  | Some KDouble => exists f, what b = VDbl f
  | Some KBool => what b = VTrue \/ what b = VFalse
  | _ => False
  end.
Definition filling (l : list box) (e : Z) (ty : option kind) : Prop :=
  e > count l \/ (e >= count l /\ Forall (fits ty) l).
Lemma count_pos : forall l, 0 <= count l.
Proof. induction l; cbn; [lia|]. destruct (is_nil_ a); unfold count in *; lia. Qed.
Lemma count_zero : forall l, count l = 0 -> Forall (fun b => is_nil_ b = false) l.
Proof.
  induction l; cbn; intro H; [constructor|]. pose proof (count_pos l).
  fold (count l) in *. destruct (is_nil_ a) eqn:E; [lia|]. constructor; auto.
Qed.
Lemma count_upd : forall l k old x, nth_error l k = Some old ->
  count (upd l k x) = count l - (if is_nil_ old then 1 else 0) + (if is_nil_ x then 1 else 0).
Proof.
  induction l; intros k old x H; destruct k; cbn in *; try discriminate.
  - inversion H; subst. lia.
  - fold (count l). specialize (IHl k old x H). fold (count (upd l k x)). lia.
Qed.
Lemma count_all : forall l, count l <= Z.of_nat (length l).
Proof. induction l; cbn; [lia|]. fold (count l). destruct (is_nil_ a); lia. Qed.
Lemma count_full : forall l, count l = Z.of_nat (length l) -> Forall (fun b => is_nil_ b = true) l.
Proof.
  induction l; cbn; intro H; [constructor|]. fold (count l) in *. pose proof (count_all l).
  destruct (is_nil_ a) eqn:E; [|lia]. constructor; auto. apply IHl; lia.
Qed.
Lemma count_repeat : forall n, count (repeat nil_ n) = Z.of_nat n.
Proof. induction n; cbn [repeat]; [reflexivity|]. cbn [count fold_right]. fold (count (repeat nil_ n)). change (is_nil_ nil_) with true. cbv iota. lia. Qed.
Lemma filling_copy : forall l, filling l (Z.of_nat (length l)) None.
Proof.
  intro l. pose proof (count_all l). unfold filling.
  destruct (Z.eq_dec (count l) (Z.of_nat (length l))); [right|left; lia].
  split; [lia|]. apply Forall_impl with (2 := count_full l e). intros; now left.
Qed.
Lemma fits_next : forall ty v k b, next_type ty v = k -> k <> KObj -> fits ty b -> fits (Some k) b.
Proof.
  intros ty v k b E N [F|F]; [now left|]. right.
  destruct ty as [[]|]; destruct v; cbn in E; subst k; try contradiction; auto; congruence.
Qed.
Lemma fits_value : forall ty b k, next_type ty (what b) = k -> k <> KObj -> fits (Some k) b.
Proof.
  intros ty b k E N. right. destruct (what b); destruct ty as [[]|]; cbn in E; subst k; eauto; congruence.
Qed.

(** What an array of the VM has to do with a list of objects *)
Definition arr_rel (st : bstorage) (l : list box) : Prop :=
  match st with
  | BEmpty n => l = repeat nil_ (Z.to_nat n)
  | BPartial bs e ty => Forall2 same bs l /\ filling bs e ty /\ bs <> []
  | BObj bs => Forall2 same bs l
  | BLong zs => Forall2 (fun z b => what b = VInt z) zs l
  | BDouble fs => Forall2 (fun f b => what b = VDbl f) fs l
  | BBool xs => Forall2 (fun x b => b = bool_ x) xs l
  end.
Definition boxes (st : bstorage) : list box := match st with BObj l | BPartial l _ _ => l | _ => [] end.

Section Arrays.
Variable m : mode.
Variables mk : list value.
Variable sy : list (string * box).

Lemma rebox_all_spec : forall vs h bs h', rebox_all vs h = (bs, h') -> Forall (fun v => number v = true) vs ->
  exists more, h' = h ++ more /\ Forall2 (fun v b => what b = v /\ number v = true) vs bs /\ Forall (ok mk h' sy) bs.
Proof.
  induction vs as [|v vs IH]; intros h bs h' E N.
  - inversion E; subst. exists []. rewrite app_nil_r. auto.
  - inversion N as [|? ? Nv Nr]; subst. change (rebox_all (v :: vs) h) with
      (let (b, h1) := rebox v h in let (bs1, h2) := rebox_all vs h1 in (b :: bs1, h2)) in E.
    pose proof (ok_rebox mk h sy v Nv) as O. unfold rebox in E, O. cbn [fst snd] in O.
    destruct (rebox_all vs (h ++ [v])) as [bs1 h2] eqn:Er. inversion E; subst.
    destruct (IH _ _ _ Er Nr) as (more & -> & F & G). exists (v :: more).
    rewrite <- app_assoc. cbn [app]. split; [reflexivity|]. split; [constructor; auto|].
    constructor.
    + pose proof (ok_grow _ _ _ [] more [] _ O) as K. rewrite !app_nil_r, <- app_assoc in K. exact K.
    + rewrite <- app_assoc in G. exact G.
Qed.

Lemma get_idx_rel : forall st l idx h b h',
  arr_rel st l -> Forall (ok mk h sy) (boxes st) -> get_idx m st idx h = Ok (b, h') ->
  exists b' more, py_get Hosted l idx = Ok b' /\ same b b' /\ h' = h ++ more /\ ok mk h' sy b.
Proof.
  intros st l idx h b h' A O E; destruct st; cbn [get_idx arr_rel boxes] in *.
  - destruct ((0 <=? idx) && (idx <? n)) eqn:B; [|discriminate]. inversion E; subst.
    assert (L : length (repeat nil_ (Z.to_nat n)) = Z.to_nat n) by apply repeat_length.
    exists nil_, []. unfold py_get. rewrite (py_index_0 _ _ n idx L B).
    rewrite nth_error_repeat_.
    + rewrite app_nil_r. auto using same_refl, ok_nil_.
    + apply andb_true_iff in B as [B1 B2]. apply Z.leb_le in B1. apply Z.ltb_lt in B2. lia.
  - destruct A as (A & _ & _). destruct (py_get m l0 idx) eqn:G; [|discriminate]. inversion E; subst.
    destruct (py_get_rel _ _ _ _ _ _ _ _ A G) as (y & Ey & S). exists y, []. rewrite app_nil_r.
    repeat split; auto; try apply S. apply py_get_in in G. rewrite Forall_forall in O. now apply O.
    apply py_get_in in G. rewrite Forall_forall in O. now apply O.
  - destruct (py_get m l0 idx) eqn:G; [|discriminate]. inversion E; subst.
    destruct (py_get_rel _ _ _ _ _ _ _ _ A G) as (y & Ey & S). exists y, []. rewrite app_nil_r.
    apply py_get_in in G. rewrite Forall_forall in O. auto.
  - destruct (py_get m l0 idx) eqn:G; [|discriminate]. inversion E; subst.
    destruct (py_get_rel _ _ _ _ _ _ _ _ A G) as (y & Ey & S).
    exists y, [VInt a]. split; [assumption|]. split; [apply same_num; cbn; auto|].
    split; [reflexivity|]. exact (ok_rebox mk h sy (VInt a) eq_refl).
  - destruct (py_get m l0 idx) eqn:G; [|discriminate]. inversion E; subst.
    destruct (py_get_rel _ _ _ _ _ _ _ _ A G) as (y & Ey & S).
    exists y, [VDbl a]. split; [assumption|]. split; [apply same_num; cbn; auto|].
    split; [reflexivity|]. exact (ok_rebox mk h sy (VDbl a) eq_refl).
  - destruct (py_get m l0 idx) eqn:G; [|discriminate]. inversion E; subst.
    destruct (py_get_rel _ _ _ _ _ _ _ _ A G) as (y & Ey & S). subst y.
    exists (bool_ a), []. rewrite app_nil_r. auto using same_refl, ok_bool_.
Qed.

(** Leaving the strategy of arrays being filled *)
Lemma map_res_rel : forall A (f : value -> res A) (c : A -> value) bs l xs,
  (forall v x, f v = Ok x -> v = c x) ->
  Forall2 same bs l -> map_res (fun b => f (what b)) bs = Ok xs -> Forall2 (fun x b => what b = c x) xs l.
Proof.
  intros A f c bs l xs Hf H; revert xs; induction H as [|b b' bs l S H IH]; intros xs E; cbn in E.
  - inversion E; constructor.
  - destruct (f (what b)) eqn:F; [|discriminate]. cbn in E.
    destruct (map_res _ bs); [|discriminate]. inversion E; subst. constructor; auto.
    destruct S as [S _]. rewrite <- S. now apply Hf.
Qed.
Lemma new_storage_rel : forall k bs l h st,
  k <> KObj -> Forall2 same bs l -> Forall (ok mk h sy) bs -> filling bs 0 (Some k) ->
  new_storage_with_values k bs = Ok st -> arr_rel st l /\ boxes st = [].
Proof.
  intros k bs l h st N S O F E. destruct F as [F|[F G]]; [pose proof (count_pos bs); lia|].
  assert (Z : count bs = 0) by (pose proof (count_pos bs); lia). apply count_zero in Z.
  destruct k; cbn [new_storage_with_values] in E; try congruence.
  - destruct (map_res (fun b => embedded_integer (what b)) bs) eqn:M; [|discriminate]. inversion E; subst.
    split; [|reflexivity]. cbn. eapply map_res_rel with (c := VInt); [|exact S|exact M].
    intros v x K; destruct v; cbn in K; congruence.
  - destruct (map_res (fun b => embedded_double (what b)) bs) eqn:M; [|discriminate]. inversion E; subst.
    split; [|reflexivity]. cbn. eapply map_res_rel with (c := VDbl); [|exact S|exact M].
    intros v x K; destruct v; cbn in K; congruence.
  - inversion E; subst. split; [|reflexivity]. cbn. clear E F N.
    induction S as [|b b' bs l S H IH]; cbn; [constructor|].
    inversion O; inversion G; inversion Z; subst. constructor; auto.
    destruct S as [Sw Si]. destruct H6 as [K|[K|K]]; [congruence| |].
    + rewrite K in *. rewrite <- Si by reflexivity. eapply ok_true; eauto.
    + rewrite K in *. rewrite <- Si by reflexivity. eapply ok_false; eauto.
Qed.
Lemma partial_set_idx_rel : forall bs e ty l idx b b' h st,
  Forall2 same bs l -> filling bs e ty -> bs <> [] -> Forall (ok mk h sy) bs -> ok mk h sy b -> same b b' ->
  partial_set_idx m bs e ty idx b = Ok st ->
  exists l', py_set Hosted l idx b' = Ok l' /\ arr_rel st l' /\ Forall (ok mk h sy) (boxes st).
Proof.
  intros bs e ty l idx b b' h st S F NE O Ob Sb E. unfold partial_set_idx in E.
  destruct (py_get m bs idx) as [old|] eqn:G; [|discriminate]. cbn [bind] in E.
  destruct (py_get_nth _ _ _ _ _ G) as (k & Ek & Eo).
  assert (NE' : forall x, upd bs k x <> []).
  { intros x K. apply NE. apply length_zero_iff_nil. rewrite <- (upd_length _ bs k x), K. reflexivity. }
  destruct (is_nil_ b) eqn:Nb.
  - assert (b = nil_) by (eapply ok_nil; eauto; unfold is_nil_ in Nb; destruct (what b); easy). subst b.
    assert (b' = nil_) by (symmetry; now apply Sb). subst b'.
    destruct (is_nil_ old) eqn:No.
    + inversion E; subst.
      assert (old = nil_) by (eapply ok_nil; [rewrite Forall_forall in O; apply O; eapply nth_error_In; eauto|];
        unfold is_nil_ in No; destruct (what old); easy). subst old.
      destruct (py_set_rel _ _ same m bs l idx nil_ nil_ (upd bs k nil_) S (same_refl _)) as (l2 & E2 & S2).
      { unfold py_set; now rewrite Ek. }
      exists l2; split; [assumption|]. cbn [arr_rel boxes].
      assert (U : upd bs k nil_ = bs).
      { clear -Eo. revert k Eo; induction bs; destruct k; cbn; intros; try discriminate; [congruence|]. now rewrite IHbs. }
      rewrite U in S2. auto.
    + destruct (py_set m bs idx nil_) as [l1|] eqn:P; [|discriminate]. cbn [bind] in E. inversion E; subst.
      destruct (py_set_rel _ _ same m bs l idx nil_ nil_ l1 S (same_refl _) P) as (l2 & E2 & S2).
      exists l2; split; [assumption|]. cbn [arr_rel boxes].
      pose proof (py_set_Forall _ (ok mk h sy) _ _ _ _ _ O (ok_nil_ _ _ _) P).
      apply py_set_upd in P as (k' & Ek' & ->). rewrite Ek in Ek'; inversion Ek'; subst k'.
      split; [|assumption]. split; [assumption|]. split; [|apply NE'].
      unfold filling. rewrite (count_upd _ _ _ nil_ Eo), No. change (is_nil_ nil_) with true. cbv iota.
      destruct F as [F|[F F2]]; [left; lia|right]. split; [lia|]. apply Forall_upd; [assumption|now left].
  - set (e' := if is_nil_ old then e - 1 else e) in *.
    destruct (py_set m bs idx b) as [l1|] eqn:P; [|discriminate]. cbn [bind] in E.
    destruct (py_set_rel _ _ same m bs l idx b b' l1 S Sb P) as (l2 & E2 & S2).
    exists l2; split; [assumption|].
    pose proof (py_set_Forall _ (ok mk h sy) _ _ _ _ _ O Ob P) as O1.
    apply py_set_upd in P as (k' & Ek' & ->). rewrite Ek in Ek'; inversion Ek'; subst k'.
    assert (K : next_type ty (what b) <> KObj -> filling (upd bs k b) e' (Some (next_type ty (what b)))).
    { intro N. unfold filling. rewrite (count_upd _ _ _ b Eo), Nb. unfold e'.
      destruct F as [F|[F F2]]; [left; destruct (is_nil_ old); lia|right].
      split; [destruct (is_nil_ old); lia|]. apply Forall_upd; [|now apply (fits_value ty)].
      eapply Forall_impl; [|exact F2]. intros a Fa. now apply (fits_next ty (what b)). }
    destruct (next_type ty (what b)) eqn:T.
    1-3: match type of K with ?k <> KObj -> _ => assert (N : k <> KObj) by discriminate end;
      specialize (K N); destruct (e' =? 0) eqn:Z;
      [ apply Z.eqb_eq in Z; rewrite Z in K;
        destruct (new_storage_rel _ _ _ _ _ N S2 O1 K E) as [A B];
        rewrite B; auto
      | inversion E; subst; cbn [arr_rel boxes]; split; [|assumption]; split; [assumption|]; split;
        [exact K|apply NE'] ].
    inversion E; subst. cbn [arr_rel boxes]. auto.
Qed.

Lemma Forall2_map_l : forall A B C (f : A -> B) (R : B -> C -> Prop) l l',
  Forall2 (fun a c => R (f a) c) l l' -> Forall2 R (map f l) l'.
Proof. induction 1; cbn; constructor; auto. Qed.
Lemma Forall2_join : forall A B C (R : A -> B -> Prop) (T : A -> C -> Prop) (U : B -> C -> Prop) l l1 l2,
  (forall a b c, R a b -> T a c -> U b c) -> Forall2 R l l1 -> Forall2 T l l2 -> Forall2 U l1 l2.
Proof.
  intros A B C R T U l l1 l2 H F; revert l2; induction F; intros l2 G; inversion G; subst; constructor; eauto.
Qed.
Lemma ok_more : forall h more b, ok mk h sy b -> ok mk (h ++ more) sy b.
Proof. intros h more b H. pose proof (ok_grow _ _ _ [] more [] _ H) as K. now rewrite !app_nil_r in K. Qed.

Lemma set_idx_rel : forall st l idx b b' h st' h',
  arr_rel st l -> Forall (ok mk h sy) (boxes st) -> ok mk h sy b -> same b b' ->
  set_idx m st idx b h = Ok (st', h') ->
  exists l' more, py_set Hosted l idx b' = Ok l' /\ arr_rel st' l' /\ h' = h ++ more /\
    Forall (ok mk h' sy) (boxes st').
Proof.
  intros st l idx b b' h st' h' A O Ob Sb E; destruct st; cbn [set_idx arr_rel boxes] in *.
  - destruct ((0 <=? idx) && (idx <? n)) eqn:B; [|discriminate].
    assert (L : length (repeat nil_ (Z.to_nat n)) = Z.to_nat n) by apply repeat_length.
    assert (Hn : (Z.to_nat idx < Z.to_nat n)%nat /\ 0 <= n).
    { apply andb_true_iff in B as [B1 B2]. apply Z.leb_le in B1. apply Z.ltb_lt in B2. lia. }
    destruct (is_nil_ b) eqn:Nb.
    + inversion E; subst. exists (repeat nil_ (Z.to_nat n)), []. rewrite app_nil_r.
      assert (b = nil_) by (eapply ok_nil; eauto; unfold is_nil_ in Nb; destruct (what b); easy). subst b.
      assert (b' = nil_) by (symmetry; now apply Sb). subst b'.
      unfold py_set. rewrite (py_index_0 _ _ n idx L B). cbn [arr_rel boxes]. repeat split; auto.
      f_equal. clear -n. generalize (Z.to_nat idx) as k. induction (Z.to_nat n); cbn; [reflexivity|].
      intros [|k]; [reflexivity|]. now rewrite IHn0.
    + destruct (partial_set_idx m (repeat nil_ (Z.to_nat n)) n None idx b) as [st1|] eqn:P; [|discriminate].
      inversion E; subst.
      destruct (partial_set_idx_rel (repeat nil_ (Z.to_nat n)) n None (repeat nil_ (Z.to_nat n)) idx b b' h' st') as (l' & E1 & E2 & E3); auto.
      * clear. induction (Z.to_nat n); cbn; constructor; auto using same_refl.
      * right. rewrite count_repeat. split; [lia|]. clear. induction (Z.to_nat n); cbn; constructor; auto. now left.
      * destruct (Z.to_nat n); [lia|discriminate].
      * clear. induction (Z.to_nat n); cbn; constructor; auto using ok_nil_.
      * exists l', []. rewrite app_nil_r. auto.
  - destruct A as (A & F & NE). destruct (partial_set_idx m l0 empty_elements ty idx b) as [st1|] eqn:P; [|discriminate].
    inversion E; subst.
    destruct (partial_set_idx_rel _ _ _ _ _ _ _ _ _ A F NE O Ob Sb P) as (l' & E1 & E2 & E3).
    exists l', []. rewrite app_nil_r. auto.
  - destruct (py_set m l0 idx b) as [l1|] eqn:P; [|discriminate]. inversion E; subst.
    destruct (py_set_rel _ _ _ _ _ _ _ _ _ _ A Sb P) as (l2 & E2 & S2). exists l2, []. rewrite app_nil_r.
    cbn. repeat split; auto. eapply py_set_Forall; eauto.
  - assert (Q : (exists z, what b = VInt z) \/
      (let (bs, h1) := rebox_all (map VInt l0) h in
       l' <- py_set m bs idx b ;; Ok (BObj l', h1)) = Ok (st', h')).
    { destruct (what b); eauto. }
    destruct Q as [[z Ez]|Q].
    + rewrite Ez in E. destruct (py_set m l0 idx z) as [l1|] eqn:P; [|discriminate]. inversion E; subst.
      assert (Eb : what b' = VInt z) by (destruct Sb; congruence).
      destruct (py_set_rel _ _ _ _ _ _ _ _ _ _ A Eb P) as (l2 & E2 & S2). exists l2, []. rewrite app_nil_r.
      cbn. repeat split; auto.
    + clear E. destruct (rebox_all (map VInt l0) h) as [bs h1] eqn:Rb.
      destruct (rebox_all_spec _ _ _ _ Rb) as (more & -> & F & G).
      { clear. induction l0; cbn; constructor; auto. }
      destruct (py_set m bs idx b) as [l1|] eqn:P; [|discriminate]. cbn in Q. inversion Q; subst.
      assert (S : Forall2 same bs l).
      { eapply Forall2_join; [|exact F|apply Forall2_map_l with (R := fun v b => what b = v); exact A].
        cbn. intros v c d [Hc Nv] Hd. apply same_num; congruence. }
      destruct (py_set_rel _ _ _ _ _ _ _ _ _ _ S Sb P) as (l2 & E2 & S2). exists l2, more.
      cbn. repeat split; auto. eapply py_set_Forall; eauto. now apply ok_more.
  - destruct (what b) eqn:W; try discriminate.
    destruct (py_set m l0 idx f) as [l1|] eqn:P; [|discriminate]. inversion E; subst.
    assert (Eb : what b' = VDbl f) by (destruct Sb; congruence).
    destruct (py_set_rel _ _ _ _ _ _ _ _ _ _ A Eb P) as (l2 & E2 & S2). exists l2, []. rewrite app_nil_r.
    cbn. repeat split; auto.
  - assert (Q : exists x, b = bool_ x /\ is_true_object (what b) = x /\ (l' <- py_set m l0 idx x ;; Ok (BBool l', h)) = Ok (st', h')).
    { destruct (what b) eqn:W; try discriminate.
      - exists true. split; [|auto]. eapply ok_true; eauto.
      - exists false. split; [|auto]. eapply ok_false; eauto. }
    clear E. destruct Q as (x & -> & Ex & E).
    assert (b' = bool_ x) by (symmetry; apply Sb; destruct x; reflexivity). subst b'.
    destruct (py_set m l0 idx x) as [l1|] eqn:P; [|discriminate]. inversion E; subst.
    destruct (py_set_rel _ _ (fun x b => b = bool_ x) _ _ _ _ x (bool_ x) _ A eq_refl P) as (l2 & E2 & S2). exists l2, []. rewrite app_nil_r.
    cbn. repeat split; auto.
Qed.
End Arrays.

(** * putAll:, copy, fields *)
Lemma same_repeat : forall b b' n, same b b' -> Forall2 same (repeat b n) (repeat b' n).
Proof. induction n; cbn; constructor; auto. Qed.
Lemma Forall2_repeat : forall A B (R : A -> B -> Prop) x y n, R x y -> Forall2 R (repeat x n) (repeat y n).
Proof. induction n; cbn; constructor; auto. Qed.
Lemma Forall_repeat : forall A (P : A -> Prop) x n, P x -> Forall P (repeat x n).
Proof. induction n; cbn; constructor; auto. Qed.
Lemma map_const : forall A B (x : B) (l : list A), map (fun _ => x) l = repeat x (length l).
Proof. induction l; cbn; congruence. Qed.
Lemma set_all_with_value_rel : forall mk rb sy b b' size,
  ok mk rb sy b -> same b b' ->
  arr_rel (set_all_with_value b size) (repeat b' (Z.to_nat size)) /\
  Forall (ok mk rb sy) (boxes (set_all_with_value b size)).
Proof.
  intros mk rb sy b b' size O S. unfold set_all_with_value, zrepeat.
  destruct (what b) eqn:W; cbn [arr_rel boxes]; (split; [|try constructor; try (now apply Forall_repeat)]);
    try (now apply Forall2_repeat);
    try (apply Forall2_repeat; destruct S as [S _]; congruence).
  - f_equal. transitivity b; [symmetry; apply S; now rewrite W|eapply ok_nil; eauto].
  - apply Forall2_repeat. transitivity b; [symmetry; apply S; now rewrite W|eapply ok_true; eauto].
  - apply Forall2_repeat. transitivity b; [symmetry; apply S; now rewrite W|eapply ok_false; eauto].
Qed.
Lemma arr_size : forall st l, arr_rel st l -> length l = Z.to_nat (get_size st).
Proof.
  intros st l A; destruct st; cbn [arr_rel get_size] in *; try rewrite Nat2Z.id.
  - subst; apply repeat_length.
  - destruct A as [A _]. symmetry; eapply Forall2_length; eauto.
  - symmetry; eapply Forall2_length; eauto.
  - symmetry; eapply Forall2_length; eauto.
  - symmetry; eapply Forall2_length; eauto.
  - symmetry; eapply Forall2_length; eauto.
Qed.
Lemma set_all_rel : forall mk rb sy st l b b',
  arr_rel st l -> ok mk rb sy b -> same b b' ->
  arr_rel (set_all st b) (map (fun _ => b') l) /\ Forall (ok mk rb sy) (boxes (set_all st b)).
Proof.
  intros mk rb sy st l b b' A O S. rewrite map_const, (arr_size _ _ A).
  pose proof (set_all_with_value_rel mk rb sy b b' (get_size st) O S) as K.
  destruct st; try exact K. unfold set_all. cbn [get_size arr_rel] in *.
  destruct (is_nil_ b) eqn:N.
  - assert (b = nil_) by (eapply ok_nil; eauto; unfold is_nil_ in N; destruct (what b); easy). subst b.
    assert (b' = nil_) by (symmetry; now apply S). subst b'. split; [reflexivity|constructor].
  - destruct (0 <? n) eqn:P; [exact K|]. apply Z.ltb_ge in P.
    replace (Z.to_nat n) with 0%nat by lia. split; [cbn; now replace (Z.to_nat n) with 0%nat by lia|constructor].
Qed.
Lemma copy_rel : forall st l st', arr_rel st l -> copy_storage st = Ok st' -> arr_rel st' l /\ boxes st' = boxes st.
Proof.
  intros st l st' A E. destruct st; cbn [copy_storage] in E; try (inversion E; subst; auto; fail).
  destruct l0 as [|b bs]; [discriminate|]. inversion E; subst. cbn [arr_rel boxes].
  destruct A as (A & F & NE). split; [|reflexivity]. split; [assumption|]. split; [|assumption].
  apply (filling_copy (b :: bs)).
Qed.

Definition slot_rel (s : slot) (b' : box) : Prop :=
  match s with
  | Unset => b' = nil_
  | Raw v => number v = true /\ what b' = v
  | Boxed b => same b b'
  end.
Definition slot_boxes (s : slot) : list box := match s with Boxed b => [b] | _ => [] end.
Lemma read_slot_rel : forall mk sy s b' h b h',
  slot_rel s b' -> Forall (ok mk h sy) (slot_boxes s) -> read_slot s h = (b, h') ->
  exists more, h' = h ++ more /\ same b b' /\ ok mk h' sy b.
Proof.
  intros mk sy s b' h b h' R O E; destruct s; cbn [read_slot slot_rel slot_boxes] in *.
  - inversion E; subst. exists []. rewrite app_nil_r. auto using same_refl, ok_nil_.
  - destruct R as [N W]. unfold rebox in E. inversion E; subst b h'. exists [v].
    split; [reflexivity|]. split; [now apply same_num|]. exact (ok_rebox mk h sy v N).
  - inversion E; subst. exists []. rewrite app_nil_r. inversion O; auto.
Qed.
Lemma write_slot_rel : forall mk rb sy raw b b',
  ok mk rb sy b -> same b b' ->
  slot_rel (write_slot raw b) b' /\ Forall (ok mk rb sy) (slot_boxes (write_slot raw b)).
Proof.
  intros mk rb sy raw b b' O S. unfold write_slot.
  destruct (is_nil_ b && raw) eqn:N; cbn [slot_rel slot_boxes].
  - apply andb_true_iff in N as [N _]. split; [|constructor].
    assert (b = nil_) by (eapply ok_nil; eauto; unfold is_nil_ in N; destruct (what b); easy). subst b.
    symmetry; now apply S.
  - destruct (number (what b) && raw) eqn:M; cbn [slot_rel slot_boxes]; [|split; [assumption|now constructor]].
    apply andb_true_iff in M as [M _]. split; [|constructor]. split; [assumption|]. symmetry; apply S.
Qed.
Lemma ok_mono : forall mk rb sy mk' rb' sy' b,
  (exists x, mk' = mk ++ x) -> (exists x, rb' = rb ++ x) -> (exists x, sy' = sy ++ x) ->
  ok mk rb sy b -> ok mk' rb' sy' b.
Proof. intros mk rb sy mk' rb' sy' b [x ->] [y ->] [z ->]; apply ok_grow. Qed.
Lemma self_grow : forall A (l : list A), exists x, l = l ++ x.
Proof. intros; exists []; now rewrite app_nil_r. Qed.
Lemma relayout_rel : forall mk sy ss l raws h ss' h',
  Forall2 slot_rel ss l -> Forall (fun s => Forall (ok mk h sy) (slot_boxes s)) ss ->
  relayout ss raws h = (ss', h') ->
  exists more, h' = h ++ more /\ Forall2 slot_rel ss' l /\ Forall (fun s => Forall (ok mk h' sy) (slot_boxes s)) ss'.
Proof.
  intros mk sy ss; induction ss as [|s ss IH]; intros l raws h ss' h' F O E.
  - inversion F; subst. inversion E; subst. exists []. rewrite app_nil_r. auto.
  - inversion F as [|? b' ? l' Fs Fr]; subst. inversion O as [|? ? Os Or]; subst. cbn [relayout] in E.
    destruct (read_slot s h) as [b h1] eqn:Rd.
    destruct (read_slot_rel mk sy s b' h b h1 Fs Os Rd) as (m1 & -> & S1 & O1).
    destruct (relayout ss (tl raws) (h ++ m1)) as [rest h2] eqn:Rl. inversion E; subst.
    destruct (IH l' (tl raws) (h ++ m1) rest h' Fr) as (m2 & E2 & F2 & O2); [|exact Rl|].
    { eapply Forall_impl; [|exact Or]. intros a Ha. eapply Forall_impl; [|exact Ha].
      intros c Hc. eapply ok_mono; [| | |exact Hc]; eauto using self_grow. }
    subst h'. assert (O3 : ok mk ((h ++ m1) ++ m2) sy b) by (eapply ok_mono; [| | |exact O1]; eauto using self_grow).
    destruct (write_slot_rel mk _ sy (hd false raws) b b' O3 S1) as [W1 W2].
    exists (m1 ++ m2). rewrite app_assoc. repeat split; constructor; auto.
Qed.

(** * The simulation *)
Definition cell_rel (c : cell) (l : list box) : Prop :=
  match c with Inst ss => Forall2 slot_rel ss l | Arr st => arr_rel st l end.
Definition cell_ok (P : box -> Prop) (c : cell) : Prop :=
  match c with Inst ss => Forall (fun s => Forall P (slot_boxes s)) ss | Arr st => Forall P (boxes st) end.
Lemma cell_ok_impl : forall (P Q : box -> Prop) c, (forall b, P b -> Q b) -> cell_ok P c -> cell_ok Q c.
Proof.
  intros P Q [ss|st] H; cbn; intro F.
  - eapply Forall_impl; [|exact F]. intros; eapply Forall_impl; eauto.
  - eapply Forall_impl; eauto.
Qed.
Record R (s : mem) (t : ideal) : Prop := {
  r_made : made s = i_made t;
  r_symbols : symbols s = i_symbols t;
  r_table : forall u b, find u (symbols s) = Some b -> ok (made s) (reboxed s) (symbols s) b /\ what b = VSym u;
  r_ok : Forall (cell_ok (ok (made s) (reboxed s) (symbols s))) (cells s);
  r_cells : Forall2 cell_rel (cells s) (i_cells t);
  r_vars_ok : Forall (ok (made s) (reboxed s) (symbols s)) (vars s);
  r_vars : Forall2 same (vars s) (i_vars t) }.
Definition grows (s s' : mem) : Prop :=
  (exists x, made s' = made s ++ x) /\ (exists x, reboxed s' = reboxed s ++ x) /\ (exists x, symbols s' = symbols s ++ x).
Lemma grows_ok : forall s s' b, grows s s' ->
  ok (made s) (reboxed s) (symbols s) b -> ok (made s') (reboxed s') (symbols s') b.
Proof. intros s s' b (A & B & C); now apply ok_mono. Qed.
Lemma R_start : R start ideal_start.
Proof. split; cbn; try reflexivity; try constructor; discriminate. Qed.

Lemma Forall2_snoc : forall A B (T : A -> B -> Prop) l l' x y, Forall2 T l l' -> T x y -> Forall2 T (l ++ [x]) (l' ++ [y]).
Proof. intros; apply Forall2_app; auto. Qed.
Lemma Forall_snoc : forall A (P : A -> Prop) l x, Forall P l -> P x -> Forall P (l ++ [x]).
Proof. intros; apply Forall_app; auto. Qed.

Lemma R_push : forall s t b b', R s t -> ok (made s) (reboxed s) (symbols s) b -> same b b' -> R (push b s) (i_push b' t).
Proof.
  intros s t b b' [] O S; split; cbn; auto using Forall2_snoc, Forall_snoc.
Qed.
Lemma R_var : forall s t x b, R s t -> var s x = Ok b ->
  exists b', i_var t x = Ok b' /\ same b b' /\ ok (made s) (reboxed s) (symbols s) b.
Proof.
  intros s t x b r E. unfold var, i_var in *. destruct (nth_error (vars s) x) eqn:N; [|discriminate].
  inversion E; subst. destruct (Forall2_nth _ _ _ _ _ _ _ (r_vars _ _ r) N) as (y & Ey & S).
  rewrite Ey. exists y; repeat split; auto; try apply S.
  all: pose proof (r_vars_ok _ _ r) as V; rewrite Forall_forall in V; apply V; eapply nth_error_In; eauto.
Qed.
Lemma R_cell : forall s t b b' k c, R s t -> same b b' -> cell_of s b = Ok (k, c) ->
  exists l, i_cell t b' = Ok (k, l) /\ cell_rel c l /\ cell_ok (ok (made s) (reboxed s) (symbols s)) c.
Proof.
  intros s t b b' k c r [W _] E. unfold cell_of, i_cell in *. rewrite W in E.
  destruct (what b') eqn:Wb; try discriminate.
  destruct (nth_error (cells s) n) eqn:N; [|discriminate]. inversion E; subst.
  destruct (Forall2_nth _ _ _ _ _ _ _ (r_cells _ _ r) N) as (l & El & S).
  rewrite El. exists l; repeat split; auto.
  pose proof (r_ok _ _ r) as V; rewrite Forall_forall in V; apply V; eapply nth_error_In; eauto.
Qed.
Lemma R_array : forall s t b b' p, R s t -> same b b' -> array_of s b = Ok p ->
  exists l, i_cell t b' = Ok (fst p, l) /\ arr_rel (snd p) l /\
    Forall (ok (made s) (reboxed s) (symbols s)) (boxes (snd p)).
Proof.
  intros s t b b' p r S E. unfold array_of in E.
  destruct (cell_of s b) as [[k c]|] eqn:C; [|discriminate]. cbn in E.
  destruct c; [discriminate|]. inversion E; subst. exact (R_cell _ _ _ _ _ _ r S C).
Qed.
Lemma R_inst : forall s t b b' p, R s t -> same b b' -> inst_of s b = Ok p ->
  exists l, i_cell t b' = Ok (fst p, l) /\ Forall2 slot_rel (snd p) l /\
    Forall (fun x => Forall (ok (made s) (reboxed s) (symbols s)) (slot_boxes x)) (snd p).
Proof.
  intros s t b b' p r S E. unfold inst_of in E.
  destruct (cell_of s b) as [[k c]|] eqn:C; [|discriminate]. cbn in E.
  destruct c; [|discriminate]. inversion E; subst. exact (R_cell _ _ _ _ _ _ r S C).
Qed.
Lemma R_set : forall s t k c l h, R s t -> (exists x, h = reboxed s ++ x) -> cell_rel c l ->
  cell_ok (ok (made s) h (symbols s)) c -> R (set_cell k c h s) (i_set k l t).
Proof.
  intros s t k c l h r H C O. set (s' := set_cell k c h s).
  assert (G : forall b, ok (made s) (reboxed s) (symbols s) b -> ok (made s) h (symbols s) b).
  { intros b Hb. eapply ok_mono; [| | |exact Hb]; eauto using self_grow. }
  destruct r. split; cbn; auto.
  - intros u b F. destruct (r_table0 u b F); auto.
  - apply Forall_upd; [|assumption]. eapply Forall_impl; [|exact r_ok0]. intros a; now apply cell_ok_impl.
  - now apply Forall2_upd.
  - eapply Forall_impl; [|exact r_vars_ok0]. auto.
Qed.
Lemma R_reboxed : forall s t h, R s t -> (exists x, h = reboxed s ++ x) -> R (set_reboxed h s) t.
Proof.
  intros s t h r H.
  assert (G : forall b, ok (made s) (reboxed s) (symbols s) b -> ok (made s) h (symbols s) b).
  { intros b Hb. eapply ok_mono; [| | |exact Hb]; eauto using self_grow. }
  destruct r. split; cbn; auto.
  - intros u b F. destruct (r_table0 u b F); auto.
  - eapply Forall_impl; [|exact r_ok0]. intros a; now apply cell_ok_impl.
  - eapply Forall_impl; [|exact r_vars_ok0]. auto.
Qed.
Lemma R_make : forall s t v, R s t -> single v = false -> (forall u, v <> VSym u) ->
  R (push_made (make v s)) (i_make v t).
Proof.
  intros s t v r N Y.
  assert (G : forall b, ok (made s) (reboxed s) (symbols s) b -> ok (made s ++ [v]) (reboxed s) (symbols s) b).
  { intros b Hb. eapply ok_mono; [| | |exact Hb]; eauto using self_grow. }
  destruct r. unfold push_made, make, i_make, push, i_push; cbn. rewrite <- r_made0. split; cbn; auto.
  - intros u b F. destruct (r_table0 u b F); auto.
  - eapply Forall_impl; [|exact r_ok0]. intros a; now apply cell_ok_impl.
  - apply Forall_snoc; [|now apply ok_made]. eapply Forall_impl; [|exact r_vars_ok0]. auto.
  - apply Forall2_snoc; [assumption|apply same_refl].
Qed.
Lemma R_make_cell : forall s t c l, R s t -> cell_rel c l -> cell_ok (ok (made s) (reboxed s) (symbols s)) c ->
  R (push_made (make_cell c s)) (i_make_cell l t).
Proof.
  intros s t c l r C O. pose proof (Forall2_length _ _ _ _ _ (r_cells _ _ r)) as L.
  pose proof (R_make s t (VObj (length (cells s))) r eq_refl ltac:(discriminate)) as K.
  unfold push_made, make_cell, make, i_make_cell, i_make, push, i_push in *; cbn in *. rewrite L in *.
  destruct K. cbn in *. split; cbn; auto.
  - apply Forall_snoc; [assumption|]. eapply cell_ok_impl; [|exact O].
    intros b Hb. eapply ok_mono; [| | |exact Hb]; eauto using self_grow.
  - now apply Forall2_snoc.
Qed.
Lemma find_snoc : forall t sy b u, find u sy = None ->
  find u (sy ++ [(t, b)]) = if String.eqb t u then Some b else None.
Proof.
  intros t; induction sy as [|[v c] sy IH]; cbn; intros b u H; [reflexivity|].
  destruct (String.eqb v u); [discriminate|auto].
Qed.
Lemma R_symbol : forall s t u, R s t -> R (push_made (symbol_for u s)) (i_symbol u t).
Proof.
  intros s t u r. unfold symbol_for, i_symbol. rewrite <- (r_symbols _ _ r).
  destruct (find u (symbols s)) as [b|] eqn:F.
  - destruct (r_table _ _ r u b F) as [O W]. apply R_push; auto. apply same_refl.
  - set (b := Box (Made (length (made s))) (VSym u)).
    assert (G : forall c, ok (made s) (reboxed s) (symbols s) c ->
                          ok (made s ++ [VSym u]) (reboxed s) (symbols s ++ [(u, b)]) c).
    { intros c Hc. eapply ok_mono; [| | |exact Hc]; eauto using self_grow. }
    assert (B : ok (made s ++ [VSym u]) (reboxed s) (symbols s ++ [(u, b)]) b).
    { split; cbn.
      - split; [|reflexivity]. rewrite nth_error_app2, Nat.sub_diag; [reflexivity|lia].
      - intros v E; inversion E; subst. rewrite (find_snoc v _ b v F). now rewrite String.eqb_refl. }
    destruct r. unfold push_made, make, i_make, push, i_push; cbn. rewrite <- r_made0. fold b.
    split; cbn; auto.
    + congruence.
    + intros v c E. destruct (find v (symbols s)) as [d|] eqn:Fv.
      * rewrite (find_grow _ _ _ _ Fv) in E. inversion E; subst. destruct (r_table0 v c Fv); auto.
      * rewrite (find_snoc u _ b v Fv) in E. destruct (String.eqb u v) eqn:Q; [|discriminate].
        apply String.eqb_eq in Q. inversion E; subst. auto.
    + eapply Forall_impl; [|exact r_ok0]. intros a; now apply cell_ok_impl.
    + apply Forall_snoc; [|exact B]. eapply Forall_impl; [|exact r_vars_ok0]. auto.
    + apply Forall2_snoc; [assumption|apply same_refl].
Qed.

Ltac getvar r E b' Eb Sb Ob :=
  match type of E with
  | bind (var ?s ?x) _ = Ok _ =>
      let V := fresh "V" in
      destruct (var s x) as [?|] eqn:V; [|discriminate E]; cbn [bind] in E;
      destruct (R_var _ _ _ _ r V) as (b' & Eb & Sb & Ob)
  end.
Lemma embedded_same : forall b b', same b b' -> embedded_integer (what b) = embedded_integer (what b').
Proof. intros b b' [E _]; now rewrite E. Qed.

Lemma step_sim : forall m o s t s', R s t -> step m o s = Ok s' -> exists t', i_step o t = Ok t' /\ R s' t'.
Proof.
  intros m o s t s' r E; destruct o; cbn [step i_step] in *.
  - inversion E; subst. eexists; split; [reflexivity|]. apply R_push; auto using same_refl, ok_nil_.
  - inversion E; subst. eexists; split; [reflexivity|]. apply R_push; auto using same_refl, ok_true_.
  - inversion E; subst. eexists; split; [reflexivity|]. apply R_push; auto using same_refl, ok_false_.
  - inversion E; subst. eexists; split; [reflexivity|]. apply R_make; auto; discriminate.
  - inversion E; subst. eexists; split; [reflexivity|]. apply R_make; auto; discriminate.
  - inversion E; subst. eexists; split; [reflexivity|]. apply R_make; auto; discriminate.
  - inversion E; subst. eexists; split; [reflexivity|]. apply R_make; auto; discriminate.
  - inversion E; subst. eexists; split; [reflexivity|]. now apply R_symbol.
  - getvar r E b' Eb Sb Ob. inversion E; subst. rewrite Eb. cbn [bind]. eexists; split; [reflexivity|]. now apply R_push.
  - inversion E; subst. eexists; split; [reflexivity|]. apply R_make_cell; auto; cbn.
    + now apply Forall2_repeat.
    + apply Forall_repeat; constructor.
  - inversion E; subst. eexists; split; [reflexivity|]. apply R_make_cell; auto; cbn; auto.
  - (* at: *)
    getvar r E a' Ea Sa Oa. getvar r E i' Ei Si Oi. rewrite Ea, Ei. cbn [bind].
    destruct (array_of s a0) as [p|] eqn:A; [|discriminate]. cbn [bind] in E.
    destruct (R_array _ _ _ _ _ r Sa A) as (l & El & Al & Ol). rewrite El. cbn [bind fst snd].
    rewrite <- (embedded_same _ _ Si). destruct (embedded_integer (what a1)) as [z|] eqn:Z; [|discriminate]. cbn [bind] in *.
    destruct (get_idx m (snd p) (z - 1) (reboxed s)) as [[b h]|] eqn:G; [|discriminate]. cbn [bind fst snd] in E.
    inversion E; subst. destruct (get_idx_rel m _ _ _ _ _ _ _ _ Al Ol G) as (b' & more & Eg & Sg & Hh & Og).
    rewrite Eg. cbn [bind]. eexists; split; [reflexivity|]. apply R_push; auto. apply R_reboxed; eauto.
  - (* at:put: *)
    getvar r E a' Ea Sa Oa. getvar r E i' Ei Si Oi. getvar r E x' Ex Sx Ox. rewrite Ea, Ei, Ex. cbn [bind].
    destruct (array_of s a0) as [p|] eqn:A; [|discriminate]. cbn [bind] in E.
    destruct (R_array _ _ _ _ _ r Sa A) as (l & El & Al & Ol). rewrite El. cbn [bind fst snd].
    rewrite <- (embedded_same _ _ Si). destruct (embedded_integer (what a1)) as [z|] eqn:Z; [|discriminate]. cbn [bind] in *.
    destruct (set_idx m (snd p) (z - 1) a2 (reboxed s)) as [[st h]|] eqn:G; [|discriminate]. cbn [bind fst snd] in E.
    inversion E; subst. destruct (set_idx_rel m _ _ _ _ _ _ _ _ _ _ Al Ol Ox Sx G) as (l' & more & Eg & Sg & Hh & Og).
    rewrite Eg. cbn [bind]. eexists; split; [reflexivity|]. apply R_push; auto.
    + apply R_set; eauto.
    + cbn. subst h. now apply ok_more.
  - (* putAll: *)
    getvar r E a' Ea Sa Oa. getvar r E x' Ex Sx Ox. rewrite Ea, Ex. cbn [bind].
    destruct (array_of s a0) as [p|] eqn:A; [|discriminate]. cbn [bind] in E.
    destruct (R_array _ _ _ _ _ r Sa A) as (l & El & Al & Ol). rewrite El. cbn [bind fst snd].
    inversion E; subst. destruct (set_all_rel _ _ _ _ _ _ _ Al Ox Sx) as [A1 A2].
    eexists; split; [reflexivity|]. apply R_push; auto. apply R_set; auto using self_grow.
  - (* copy *)
    getvar r E a' Ea Sa Oa. rewrite Ea. cbn [bind].
    destruct (array_of s a0) as [p|] eqn:A; [|discriminate]. cbn [bind] in E.
    destruct (R_array _ _ _ _ _ r Sa A) as (l & El & Al & Ol). rewrite El. cbn [bind fst snd].
    destruct (copy_storage (snd p)) as [st|] eqn:C; [|discriminate]. cbn [bind] in E. inversion E; subst.
    destruct (copy_rel _ _ _ Al C) as [C1 C2].
    eexists; split; [reflexivity|]. apply R_make_cell; auto. cbn. now rewrite C2.
  - (* reading a field *)
    getvar r E a' Ea Sa Oa. rewrite Ea. cbn [bind].
    destruct (inst_of s a) as [p|] eqn:A; [|discriminate]. cbn [bind] in E.
    destruct (R_inst _ _ _ _ _ r Sa A) as (l & El & Al & Ol). rewrite El. cbn [bind fst snd].
    destruct (nth_error (snd p) k) as [sl|] eqn:N; [|discriminate].
    destruct (Forall2_nth _ _ _ _ _ _ _ Al N) as (b' & Eb & Rb). rewrite Eb.
    destruct (read_slot sl (reboxed s)) as [b h] eqn:Rd. inversion E; subst.
    assert (Os : Forall (ok (made s) (reboxed s) (symbols s)) (slot_boxes sl)).
    { rewrite Forall_forall in Ol. apply Ol. eapply nth_error_In; eauto. }
    destruct (read_slot_rel _ _ _ _ _ _ _ Rb Os Rd) as (more & Hh & Sg & Og).
    eexists; split; [reflexivity|]. apply R_push; auto. apply R_reboxed; eauto.
  - (* writing a field *)
    getvar r E a' Ea Sa Oa. getvar r E x' Ex Sx Ox. rewrite Ea, Ex. cbn [bind].
    destruct (inst_of s a) as [p|] eqn:A; [|discriminate]. cbn [bind] in E.
    destruct (R_inst _ _ _ _ _ r Sa A) as (l & El & Al & Ol). rewrite El. cbn [bind fst snd].
    rewrite <- (Forall2_length _ _ _ _ _ Al).
    destruct (k <? length (snd p))%nat; [|discriminate]. inversion E; subst.
    destruct (write_slot_rel _ _ _ raw _ _ Ox Sx) as [W1 W2].
    eexists; split; [reflexivity|]. apply R_push; auto. apply R_set; auto using self_grow; cbn.
    + now apply Forall2_upd.
    + now apply Forall_upd.
  - (* a new layout *)
    getvar r E a' Ea Sa Oa. rewrite Ea. cbn [bind].
    destruct (inst_of s a) as [p|] eqn:A; [|discriminate]. cbn [bind] in E.
    destruct (R_inst _ _ _ _ _ r Sa A) as (l & El & Al & Ol). rewrite El. cbn [bind fst snd].
    destruct (relayout (snd p) raws (reboxed s)) as [ss h] eqn:Rl. inversion E; subst.
    destruct (relayout_rel _ _ _ _ _ _ _ _ Al Ol Rl) as (more & Hh & F & G).
    eexists; split; [reflexivity|].
    replace t with (i_set (fst p) l t) at 1.
    + apply R_push; auto.
      * apply R_set; eauto.
      * cbn. subst h. now apply ok_more.
    + unfold i_cell in El. destruct (what a'); try discriminate.
      destruct (nth_error (i_cells t) n) eqn:N; [|discriminate]. inversion El; subst.
      destruct t; unfold i_set; cbn in *. f_equal. clear -N. revert N. generalize (fst p) as n.
      induction i_cells; destruct n; cbn; intros; try discriminate; [congruence|]. now rewrite IHi_cells.
Qed.
Lemma run_sim : forall m os s t s', R s t -> run m os s = Ok s' -> exists t', i_run os t = Ok t' /\ R s' t'.
Proof.
  intros m os; induction os as [|o os IH]; intros s t s' r E; cbn [run i_run] in *.
  - inversion E; subst. eauto.
  - destruct (step m o s) as [s1|] eqn:S; [|discriminate]. cbn [bind] in E.
    destruct (step_sim _ _ _ _ _ r S) as (t1 & E1 & r1). rewrite E1. cbn [bind]. eauto.
Qed.
Lemma reachable_R : forall m s, reachable m s -> exists t, R s t.
Proof. intros m s [os E]. destruct (run_sim _ _ _ _ _ R_start E) as (t & _ & r); eauto. Qed.
Lemma reachable_ok : forall m s b, reachable m s -> has s b -> ok (made s) (reboxed s) (symbols s) b.
Proof.
  intros m s b H I. destruct (reachable_R _ _ H) as [t r]. pose proof (r_vars_ok _ _ r) as V.
  rewrite Forall_forall in V. auto.
Qed.

(** * Places of the ideal memory *)
Record I (t : ideal) : Prop := {
  i_table : forall u b, find u (i_symbols t) = Some b -> ok (i_made t) [] (i_symbols t) b;
  i_cells_ok : Forall (Forall (ok (i_made t) [] (i_symbols t))) (i_cells t);
  i_vars_ok : Forall (ok (i_made t) [] (i_symbols t)) (i_vars t) }.
Lemma I_start : I ideal_start.
Proof. split; cbn; try constructor; discriminate. Qed.
Lemma I_push : forall t b, I t -> ok (i_made t) [] (i_symbols t) b -> I (i_push b t).
Proof. intros t b [] O; split; cbn; auto using Forall_snoc. Qed.
Lemma I_make : forall t v, I t -> single v = false -> (forall u, v <> VSym u) -> I (i_make v t).
Proof.
  intros t v [] N Y.
  assert (G : forall b, ok (i_made t) [] (i_symbols t) b -> ok (i_made t ++ [v]) [] (i_symbols t) b).
  { intros b Hb. eapply ok_mono; [| | |exact Hb]; eauto using self_grow. }
  split; cbn; eauto.
  - eapply Forall_impl; [|exact i_cells_ok0]. intros a; apply Forall_impl; auto.
  - apply Forall_snoc; [|now apply ok_made]. eapply Forall_impl; [|exact i_vars_ok0]; auto.
Qed.
Lemma I_make_cell : forall t l, I t -> Forall (ok (i_made t) [] (i_symbols t)) l -> I (i_make_cell l t).
Proof.
  intros t l H O. destruct (I_make t (VObj (length (i_cells t))) H eq_refl ltac:(discriminate)).
  unfold i_make_cell. split; cbn in *; auto. apply Forall_snoc; auto.
  eapply Forall_impl; [|exact O]. intros b Hb. eapply ok_mono; [| | |exact Hb]; eauto using self_grow.
Qed.
Lemma I_symbol : forall t u, I t -> I (i_symbol u t).
Proof.
  intros t u H. unfold i_symbol. destruct (find u (i_symbols t)) as [b|] eqn:F.
  - apply I_push; auto. eapply i_table; eauto.
  - destruct H. set (b := Box (Made (length (i_made t))) (VSym u)).
    assert (G : forall c, ok (i_made t) [] (i_symbols t) c ->
                          ok (i_made t ++ [VSym u]) [] (i_symbols t ++ [(u, b)]) c).
    { intros c Hc. eapply ok_mono; [| | |exact Hc]; eauto using self_grow. }
    assert (B : ok (i_made t ++ [VSym u]) [] (i_symbols t ++ [(u, b)]) b).
    { split; cbn.
      - split; [|reflexivity]. rewrite nth_error_app2, Nat.sub_diag; [reflexivity|lia].
      - intros v E; inversion E; subst. rewrite (find_snoc v _ b v F). now rewrite String.eqb_refl. }
    split; cbn.
    + intros v c E. destruct (find v (i_symbols t)) as [d|] eqn:Fv.
      * rewrite (find_grow _ _ _ _ Fv) in E. inversion E; subst. eauto.
      * rewrite (find_snoc u _ b v Fv) in E. destruct (String.eqb u v) eqn:Q; [|discriminate].
        inversion E; subst. auto.
    + eapply Forall_impl; [|exact i_cells_ok0]. intros a; apply Forall_impl; auto.
    + apply Forall_snoc; [|exact B]. eapply Forall_impl; [|exact i_vars_ok0]. auto.
Qed.
Lemma I_var : forall t x b, I t -> i_var t x = Ok b -> ok (i_made t) [] (i_symbols t) b.
Proof.
  intros t x b [] E. unfold i_var in E. destruct (nth_error (i_vars t) x) eqn:N; [|discriminate].
  inversion E; subst. rewrite Forall_forall in i_vars_ok0. apply i_vars_ok0. eapply nth_error_In; eauto.
Qed.
Lemma I_cell : forall t b p, I t -> i_cell t b = Ok p -> Forall (ok (i_made t) [] (i_symbols t)) (snd p).
Proof.
  intros t b p [] E. unfold i_cell in E. destruct (what b); try discriminate.
  destruct (nth_error (i_cells t) n) eqn:N; [|discriminate]. inversion E; subst.
  rewrite Forall_forall in i_cells_ok0. apply i_cells_ok0. eapply nth_error_In; eauto.
Qed.
Lemma I_set : forall t k l, I t -> Forall (ok (i_made t) [] (i_symbols t)) l -> I (i_set k l t).
Proof. intros t k l [] O; split; cbn; auto. now apply Forall_upd. Qed.
Ltac getivar E :=
  match type of E with
  | bind (i_var ?s ?x) _ = Ok _ =>
      let V := fresh "V" in destruct (i_var s x) as [?|] eqn:V; [|discriminate E]; cbn [bind] in E
  | bind (i_cell ?s ?x) _ = Ok _ =>
      let V := fresh "P" in destruct (i_cell s x) as [?|] eqn:V; [|discriminate E]; cbn [bind] in E
  | bind ?s _ = Ok _ =>
      let V := fresh "Q" in destruct s as [?|] eqn:V; [|discriminate E]; cbn [bind] in E
  end.
Lemma i_step_I : forall o t t', I t -> i_step o t = Ok t' -> I t'.
Proof.
  intros o t t' H E; destruct o; cbn [i_step] in E; repeat getivar E;
    try (inversion E; subst; auto using I_push, I_symbol, ok_nil_, ok_true_, ok_false_; fail);
    try (inversion E; subst; apply I_make; auto; discriminate).
  - inversion E; subst. apply I_push; auto. eapply I_var; eauto.
  - inversion E; subst. apply I_make_cell; auto. apply Forall_repeat, ok_nil_.
  - inversion E; subst. apply I_make_cell; auto. apply Forall_repeat, ok_nil_.
  - inversion E; subst. apply I_push; auto. pose proof (I_cell _ _ _ H P) as F. rewrite Forall_forall in F.
    apply F. eapply py_get_in; eauto.
  - inversion E; subst. apply I_push; [|cbn; eapply I_var; eauto]. apply I_set; auto.
    eapply py_set_Forall; [exact (I_cell _ _ _ H P)| |exact Q0]. eapply I_var; eauto.
  - inversion E; subst. apply I_push; [|cbn; eapply I_var; eauto]. apply I_set; auto.
    rewrite map_const. apply Forall_repeat. eapply I_var; eauto.
  - inversion E; subst. apply I_make_cell; auto. eapply I_cell; eauto.
  - destruct (nth_error (snd a0) k) eqn:N; [|discriminate]. inversion E; subst. apply I_push; auto.
    pose proof (I_cell _ _ _ H P) as F. rewrite Forall_forall in F. apply F. eapply nth_error_In; eauto.
  - destruct (k <? length (snd a1))%nat; [|discriminate]. inversion E; subst.
    apply I_push; [|cbn; eapply I_var; eauto]. apply I_set; auto. apply Forall_upd; [eapply I_cell; eauto|eapply I_var; eauto].
  - inversion E; subst. apply I_push; auto. eapply I_var; eauto.
Qed.
Lemma i_run_I : forall os t t', I t -> i_run os t = Ok t' -> I t'.
Proof.
  induction os as [|o os IH]; intros t t' H E; cbn [i_run] in E; [inversion E; subst; auto|].
  destruct (i_step o t) as [t1|] eqn:S; [|discriminate]. cbn [bind] in E. eauto using i_step_I.
Qed.
