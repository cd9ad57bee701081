(** C60 for programs that bind globals with system global:put:. *)
From Coq Require Import Bool String List Ascii Arith Lia.
From Verif Require Import Base LexModel ParseModel ClsModel ClsSpec ClsGrow ClsStart ClsProps PutModel.
Import ListNotations.

Lemma put_glob M (u : univ M) n v m : glob M (snd (set_glob M n (Some v) u)) m = if text_eqb n m then Some v else glob M u m.
Proof. unfold glob, set_glob. cbn [snd u_globs]. rewrite tget_tset. destruct (text_eqb n m); reflexivity. Qed.
Lemma act_classes M sel is_prim known avoid path fuel meta a (u : univ M) :
  exists more, u_cls (snd (act M sel is_prim known avoid path fuel meta a u)) = u_cls u ++ more.
Proof.
  destruct a as [q|n v]; cbn [act snd].
  - exact (proj1 (grown_serve sel is_prim known avoid path fuel meta q u)).
  - exists []. unfold set_glob. cbn [snd u_cls]. now rewrite app_nil_r.
Qed.
Lemma acts_classes M sel is_prim known avoid path fuel meta l : forall u : univ M,
  exists more, u_cls (acts M sel is_prim known avoid path fuel meta l u) = u_cls u ++ more.
Proof.
  induction l as [|a r IH]; intros u; cbn [acts]; [exists []; now rewrite app_nil_r|].
  destruct (act_classes M sel is_prim known avoid path fuel meta a u) as [x X].
  destruct (IH (snd (act M sel is_prim known avoid path fuel meta a u))) as [y Y]. exists (x ++ y). rewrite Y, X. now rewrite app_assoc.
Qed.
Lemma acts_app M sel is_prim known avoid path fuel meta l r : forall u : univ M,
  acts M sel is_prim known avoid path fuel meta (l ++ r) u = acts M sel is_prim known avoid path fuel meta r (acts M sel is_prim known avoid path fuel meta l u).
Proof. induction l as [|a l IH]; intros u; [reflexivity|]. cbn [app acts]. apply IH. Qed.

(** No history of requests and global:put: alters a class that exists. *)
Theorem C60_put_keeps_classes : forall M sel is_prim known avoid path fuel meta l (u : univ M) i,
  i < length (u_cls u) ->
  nth_error (u_cls (acts M sel is_prim known avoid path fuel meta l u)) i = nth_error (u_cls u) i.
Proof.
  intros M sel is_prim known avoid path fuel meta l u i L.
  destruct (acts_classes M sel is_prim known avoid path fuel meta l u) as [x ->]. now apply nth_error_app1.
Qed.
Print Assumptions C60_put_keeps_classes.

(** A global that has a value keeps it until the program puts another one. *)
Theorem C60_put_keeps_globals : forall M sel is_prim known avoid path fuel meta l (u : univ M) n v,
  glob M u n = Some v -> (forall w, ~ In (Put M n w) l) ->
  glob M (acts M sel is_prim known avoid path fuel meta l u) n = Some v.
Proof.
  intros M sel is_prim known avoid path fuel meta l. induction l as [|a r IH]; intros u n v G N; cbn [acts]; [exact G|].
  apply IH; [|intros w W; exact (N w (or_intror W))]. destruct a as [q|m w]; cbn [act snd].
  - exact (proj2 (grown_serve sel is_prim known avoid path fuel meta q u) n v G).
  - change (glob M (snd (set_glob M m (Some w) u)) n = Some v). rewrite put_glob. destruct (text_eqb m n) eqn:T; [|exact G].
    apply text_eqb_eq in T. subst m. destruct (N w (or_introl eq_refl)).
Qed.
Print Assumptions C60_put_keeps_globals.

(** The value last put under a name is what asking for a class of that name answers ever after, and
    no file is read for it. *)
Theorem C60_put_answers : forall M sel is_prim known avoid path fuel meta before after (u : univ M) n v,
  (forall w, ~ In (Put M n w) after) ->
  let u' := acts M sel is_prim known avoid path fuel meta (before ++ Put M n v :: after) u in
  forall fuel', load_class M sel is_prim known avoid path (S fuel') meta n u' = (Ok (Some v), u').
Proof.
  intros M sel is_prim known avoid path fuel meta before after u n v N u' fuel'.
  assert (G : glob M u' n = Some v).
  { subst u'. rewrite acts_app. cbn [acts act]. apply C60_put_keeps_globals; [|exact N].
    cbn [snd]. rewrite put_glob. now rewrite (proj2 (text_eqb_eq n n) eq_refl). }
  cbn [load_class]. now rewrite G.
Qed.
Print Assumptions C60_put_answers.

(** So with global:put: a class asked for again need not be the same class, ... *)
Theorem C60_put_same_class_refuted : exists l u c, u = snd (load_class xm fst snd xknown false xpath 9 1 (str "Counter") xuniv) /\
  glob xm u (str "Counter") = Some (GCls c) /\
  let w := acts xm fst snd xknown false xpath 9 1 l u in
  exists c', fst (load_class xm fst snd xknown false xpath 9 1 (str "Counter") w) = Ok (Some (GCls c')) /\ c' <> c /\
    name_of w c' = Some (str "Named").
Proof.
  exists [Ask xm (Load xm (str "Named")); Put xm (str "Counter") (GCls 41)]. eexists. eexists.
  split; [reflexivity|]. split; [vm_compute; reflexivity|]. cbv zeta. exists 41. split; [vm_compute; reflexivity|].
  split; [discriminate|vm_compute; reflexivity].
Qed.
Print Assumptions C60_put_same_class_refuted.
(** ... and the superclass of a class loaded later is whatever was put under the name in its file. *)
Theorem C59_put_superclass_refuted : exists l c d sc,
  let w := acts xm fst snd xknown false xpath 9 1 l xuniv in
  glob xm w (str "Named") = Some (GCls c) /\ find xm xpath (str "Named") = Some (Good d) /\ super_name d = str "Counter" /\
  super_of w c = Some sc /\ name_of w sc = Some (str "Boolean") /\ fields_of w c = Some [str "name"].
Proof.
  assert (X : exists b, glob xm xuniv (str "Boolean") = Some (GCls b)) by (eexists; vm_compute; reflexivity).
  destruct X as [b X]. exists [Put xm (str "Counter") (GCls b); Ask xm (Load xm (str "Named"))].
  vm_compute in X. injection X as <-. eexists. eexists. eexists. cbv zeta.
  repeat (split; [vm_compute; reflexivity|]). vm_compute. reflexivity.
Qed.
Print Assumptions C59_put_superclass_refuted.

(** Installing primitives changes neither superclasses nor fields. *)
Definition alike {M} (u u' : univ M) : Prop := forall j, super_of u' j = super_of u j /\ fields_of u' j = fields_of u j.
Lemma alike_refl M (u : univ M) : alike u u.
Proof. intros j. auto. Qed.
Lemma install_alike M l : forall i mi n (u : univ M), alike u (snd (install M i mi n l u)).
Proof.
  induction l as [|[b s] r IH]; intros i mi n u; cbn [install]; [apply alike_refl|].
  unfold andthen at 1. cbn [add_primitive edit fst snd].
  set (w := Build_univ _ _). intros j. destruct (IH i mi n w j) as [A B]. rewrite A, B. subst w.
  unfold super_of, fields_of, edit. cbn [u_cls snd]. rewrite nth_upd. destruct (Nat.eqb _ j); destruct (nth_error (u_cls u) j) as [k|]; auto.
Qed.
Lemma alike_read M A B (x : comp M A) (f : A -> comp M B) u : snd (x u) = u -> (forall a, x u = (Ok a, u) -> alike u (snd (f a u))) ->
  alike u (snd (andthen M x f u)).
Proof.
  intros E H. unfold andthen. destruct (x u) as [[a|e] w]; cbn [fst snd] in *; subst w; [now apply H|apply alike_refl].
Qed.
Lemma primitives_alike M known r sys (u : univ M) : alike u (snd (maybe_primitives M known r sys u)).
Proof.
  destruct r as [i|]; cbn [maybe_primitives]; [|apply alike_refl].
  apply alike_read; [apply grown_get|]. intros k _. apply alike_read; [apply grown_the|]. intros mi _.
  apply alike_read; [apply grown_get|]. intros mk _. destruct (k_prims k || k_prims mk || sys); [|apply alike_refl].
  unfold load_primitives. apply alike_read; [apply grown_get|]. intros k' _. apply alike_read; [apply grown_the|]. intros n _.
  destruct (known n) as [l|]; [|apply alike_refl]. apply alike_read; [apply grown_the|]. intros mi' _. apply install_alike.
Qed.

(** Whatever the state, global:put: included: a class that is loaded is below the class that the name
    in its file denotes then, and its fields follow those of that class. *)
Theorem C59_superclass_any_state : forall M sel is_prim known avoid path fuel meta n (u u' : univ M) d b c,
  glob M u n = None -> find M path n = Some (Good d) -> super_name d <> str "nil" -> glob M u (super_name d) = Some (GCls b) ->
  load_class M sel is_prim known avoid path (S (S fuel)) meta n u = (Ok (Some (GCls c)), u') ->
  super_of u' c = Some b /\ exists fs, fields_of u b = Some fs /\ fields_of u' c = Some (fs ++ c_fields M d).
Proof.
  intros M sel is_prim known avoid path fuel meta n u u' d b c G F N S H.
  remember (Datatypes.S fuel) as k0 eqn:Ek.
  assert (L : load_class M sel is_prim known avoid path k0 meta (super_name d) u = (Ok (Some (GCls b)), u)) by (rewrite Ek; cbn [load_class]; now rewrite S).
  cbn [load_class] in H. rewrite G in H.
  apply andthen_ok in H. destruct H as (r & u1 & H1 & H2).
  apply andthen_ok in H2. destruct H2 as (t & u2 & H2 & H3). apply andthen_ok in H3. destruct H3 as (t' & u3 & H3 & H4).
  unfold ret in H4. injection H4 as R <-. destruct r as [i|]; [|discriminate R]. injection R as ->.
  unfold set_glob in H3. injection H3 as _ <-.
  assert (A := primitives_alike M known (Some c) false u1). rewrite H2 in A. cbn [snd] in A. destruct (A c) as [A1 A2].
  change (super_of u2 c = Some b /\ exists fs, fields_of u b = Some fs /\ fields_of u2 c = Some (fs ++ c_fields M d)).
  rewrite A1, A2. clear A A1 A2 H2 t t'.
  unfold load_file in H1. rewrite F in H1. apply andthen_ok in H1. destruct H1 as (i & w & H1 & H2).
  assert (W : i = c /\ u1 = w).
  { apply andthen_ok in H2. destruct H2 as (k & w1 & K1 & H2). unfold get in K1. destruct (nth_error (u_cls w) i); [|discriminate K1]. injection K1 as <- <-.
    apply andthen_ok in H2. destruct H2 as (nm & w2 & K2 & H2). destruct (k_name _) in K2; [|discriminate K2]. injection K2 as _ <-.
    apply andthen_ok in H2. destruct H2 as (tt' & w3 & K3 & H2). unfold ret in H2. injection H2 as -> <-. split; [reflexivity|].
    destruct (text_eqb n nm); [unfold ret in K3; congruence|]. unfold exit in K3. destruct avoid; unfold ret, fail in K3; congruence. }
  destruct W as [-> ->]. clear H2. cbn [compile] in H1. apply andthen_ok in H1. destruct H1 as (sup & v & H1 & H2).
  unfold superclass in H1. change (match c_super M d with Some n => n | None => t_Object end) with (super_name d) in H1.
  destruct (text_eqb (super_name d) t_nil) eqn:T; [apply text_eqb_eq in T; contradiction|].
  rewrite (andthen_step _ _ _ _ _ _ _ L) in H1. cbv beta iota in H1.
  apply andthen_ok in H1. destruct H1 as (k & v1 & K1 & H1). unfold get in K1. destruct (nth_error (u_cls u) b) as [kb|] eqn:Kb; [|discriminate K1]. injection K1 as -> <-.
  apply andthen_ok in H1. destruct H1 as (fs & v2 & K2 & H1). destruct (k_fields k) as [fs'|] eqn:Kf; [|discriminate K2]. injection K2 as -> <-.
  apply andthen_ok in H1. destruct H1 as (mi & v3 & K3 & H1). destruct (k_class k) as [mi'|] eqn:Kc; [|discriminate K3]. injection K3 as -> <-.
  apply andthen_ok in H1. destruct H1 as (mk & v4 & K4 & H1). unfold get in K4. destruct (nth_error (u_cls u) mi) as [mk'|] eqn:Km; [|discriminate K4]. injection K4 as -> <-.
  apply andthen_ok in H1. destruct H1 as (cfs & v5 & K5 & H1). destruct (k_fields mk) as [cfs'|]; [|discriminate K5]. injection K5 as -> <-.
  unfold ret in H1. injection H1 as <- <-.
  unfold assemble in H2. apply andthen_ok in H2. destruct H2 as (me & v6 & K6 & H2). unfold get in K6. destruct (nth_error (u_cls u) meta) as [mm|]; [|discriminate K6]. injection K6 as -> <-.
  cbv beta iota in H2. apply andthen_ok in H2. destruct H2 as (sk & v7 & K7 & H2). unfold get in K7. rewrite Kb in K7. injection K7 as <- <-.
  apply andthen_ok in H2. destruct H2 as (smc & v8 & K8 & H2). rewrite Kc in K8. injection K8 as <- <-.
  unfold andthen, alloc in H2. cbn [fst snd u_cls u_globs] in H2. injection H2 as <- <-.
  unfold super_of, fields_of. cbn [u_cls]. rewrite nth_error_app2 by lia. rewrite Nat.sub_diag. cbn [nth_error k_super k_fields].
  rewrite Kb, Kf. split; [reflexivity|]. exists fs. split; reflexivity.
Qed.
Print Assumptions C59_superclass_any_state.

Example C60_put_nonvacuous :
  let l := [Put xm (str "Answer") (GObj (str "42") 21); Ask xm (Load xm (str "Named"))] in
  let w := acts xm fst snd xknown false xpath 9 1 l xuniv in
  (forall v, ~ In (Put xm (str "Answer") v) [Ask xm (Load xm (str "Named"))]) /\
  glob xm w (str "Answer") = Some (GObj (str "42") 21) /\ (exists c, glob xm w (str "Named") = Some (GCls c)) /\
  glob xm w (str "Object") = glob xm xuniv (str "Object") /\ length (u_cls xuniv) < length (u_cls w).
Proof.
  cbv zeta. split; [intros v [H|[]]; discriminate|]. split; [vm_compute; reflexivity|]. split; [eexists; vm_compute; reflexivity|].
  split; [vm_compute; reflexivity|]. vm_compute. lia.
Qed.
