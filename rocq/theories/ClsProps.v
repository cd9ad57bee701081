(** Classes: properties C58 to C60. *)
From Coq Require Import Bool String List Ascii Arith Lia.
From Verif Require Import Base LexModel ParseModel ClsModel ClsSpec ClsGrow ClsEnd ClsHier ClsDecl ClsStart ClsBoot ClsSuper.
Import ListNotations.

(** The VM started and then served a history of requests: the answers and the
    universe after it. *)
Definition served {M} sel is_prim known avoid path (s : system) (u0 : univ M) (qs : list (request M))
  (answers : list (res (option gval))) (u : univ M) : Prop :=
  exists fuel fuel',
    start M sel is_prim known avoid path fuel empty = (Ok s, u0) /\
    run M sel is_prim known avoid path fuel' (s_meta s) qs u0 = (answers, u).

(** * A small library for the examples *)
Definition xm := (text * bool)%type.
Definition xcls (n : text) (s : option text) (fs : list text) (ms : list xm) (cfs : list text) (cms : list xm)
  : text * file xm :=
  (n, Good {| c_name := n; c_super := s; c_fields := fs; c_methods := ms; c_class_fields := cfs; c_class_methods := cms |}).
Definition xfiles : list (text * file xm) :=
  [xcls (str "Object") (Some (str "nil")) [] [(str "class", true); (str "asString", false)] [] [];
   xcls (str "Class") None [] [(str "name", true)] [] [];
   xcls (str "Metaclass") (Some (str "Class")) [] [] [] [];
   xcls (str "Nil") None [] [(str "isNil", false)] [] [];
   xcls (str "Array") None [] [(str "at:", true)] [] [(str "new:", true)];
   xcls (str "Method") None [] [] [] [];
   xcls (str "String") None [] [] [] [];
   xcls (str "Symbol") (Some (str "String")) [] [] [] [];
   xcls (str "Integer") None [] [(str "+", true); (str "max:", false)] [] [];
   xcls (str "Primitive") None [] [] [] [];
   xcls (str "Double") None [] [] [] [];
   xcls (str "Block") None [] [(str "whileTrue:", true)] [] [];
   xcls (str "Boolean") None [] [(str "not", false)] [] [];
   xcls (str "True") (Some (str "Boolean")) [] [(str "and:", false)] [] [];
   xcls (str "False") (Some (str "Boolean")) [] [(str "and:", false)] [] [];
   xcls (str "System") None [] [(str "load:", true)] [] [];
   xcls (str "Block1") (Some (str "Block")) [] [(str "value", true)] [] [];
   xcls (str "Block2") (Some (str "Block")) [] [(str "value:", true)] [] [];
   xcls (str "Block3") (Some (str "Block")) [] [(str "value:with:", true)] [] [];
   xcls (str "Counter") None [str "count"] [(str "inc", false)] [str "made"] [(str "new", false)];
   xcls (str "Named") (Some (str "Counter")) [str "name"] [(str "inc", false); (str "inc", true)] [str "last"] [];
   xcls (str "Odd") (Some (str "nil")) [] [] [] [];
   xcls (str "Egg") (Some (str "Hen")) [] [] [] [];
   xcls (str "Hen") (Some (str "Egg")) [] [] [] []].
Definition xpath : list (text -> option (file xm)) := [tget xfiles].
Definition xknown (n : text) : option (list (bool * text)) :=
  tget [(str "Object", [(false, str "class")]); (str "Class", [(false, str "name")]);
        (str "Array", [(false, str "at:"); (true, str "new:")]);
        (str "Integer", [(false, str "+"); (false, str "max:")]);
        (str "True", [(false, str "and:")]); (str "False", [(false, str "and:")]);
        (str "Block", [(false, str "whileTrue:")]); (str "System", [(false, str "load:")])] n.
Definition xstart := start xm fst snd xknown false xpath 9 empty.
Definition xuniv : univ xm := Eval vm_compute in snd xstart.
Lemma xstart_ok : xstart = (Ok sys0, xuniv).
Proof. vm_compute. reflexivity. Qed.
Definition xreqs : list (request xm) :=
  [Load xm (str "Named"); Load xm (str "Odd"); Load xm (str "Missing");
   Shell xm (Good {| c_name := str "Shell Class 1"; c_super := Some (str "Named"); c_fields := [];
                     c_methods := [(str "run:", false)]; c_class_fields := []; c_class_methods := [] |})].
Definition xafter := Eval vm_compute in run xm fst snd xknown false xpath 9 1 xreqs xuniv.
Lemma xserved : @served xm fst snd xknown false xpath sys0 xuniv xreqs (fst xafter) (snd xafter).
Proof. exists 9, 9. split; vm_compute; reflexivity. Qed.

Lemma xlibrary : library xknown xpath false.
Proof.
  split; [|split].
  - assert (F : forallb (fun p => match find xm xpath (fst p) with Some (Good d) => text_eqb (super_name d) (snd p) | _ => false end)
       system_supers = true) by (vm_compute; reflexivity).
    rewrite forallb_forall in F. intros n s H. specialize (F _ H). cbn [fst snd] in F.
    destruct (find xm xpath n) as [[d| |o]|]; try discriminate. exists d. split; [reflexivity|now apply text_eqb_eq].
  - now left.
  - intros n H. unfold is_block in H. apply orb_true_iff in H. destruct H as [H|H]; [apply orb_true_iff in H; destruct H as [H|H]|];
      apply text_eqb_eq in H; subst n; reflexivity.
Qed.
Lemma xreserved : forall n d, find xm xpath n = Some (Good d) -> reserved (super_name d) = false.
Proof.
  assert (F : forallb (fun p : text * file xm => match snd p with Good d => negb (reserved (super_name d)) | _ => true end) xfiles = true)
    by (vm_compute; reflexivity).
  rewrite forallb_forall in F. intros n d H. unfold xpath in H. cbn [find] in H.
  destruct (tget xfiles n) as [f|] eqn:E; [|discriminate]. apply tget_In in E. specialize (F _ E). cbn [snd] in F.
  assert (f = Good d) by congruence. subst f. now apply negb_true_iff in F.
Qed.

(** * C58: the parallel hierarchy *)
(** Every class a program can get at, after every history of loading classes and
    of shell classes, failures included, has a metaclass that is an instance of
    Metaclass, is named like it with " class" added, and whose superclass is the
    metaclass of its superclass; Object, the only class without a superclass, has a
    metaclass that inherits from Class; and every class inherits from Object. *)
Theorem C58_parallel_hierarchy : forall M sel is_prim known avoid path s (u0 : univ M) qs answers u c,
  served sel is_prim known avoid path s u0 qs answers u -> reachable u answers c ->
  well_made u (s_meta s) (s_object s) (s_class s) c /\
  name_of u (s_meta s) = Some (str "Metaclass") /\ name_of u (s_object s) = Some (str "Object") /\
  name_of u (s_class s) = Some (str "Class").
Proof.
  intros M sel is_prim known avoid path s u0 qs answers u c (fuel & fuel' & H0 & H1) R.
  destruct (start_inv sel is_prim known avoid path fuel s u0 H0) as (-> & I & X).
  cbn [sys0 s_meta s_object s_class] in *.
  destruct (run_inv sel is_prim known avoid path qs fuel' u0 I) as (I1 & X1 & V). rewrite H1 in *. cbn [fst snd] in *.
  split.
  - apply (i_well u I1). eapply reachable_valid; eauto.
  - assert (N : forall k n, name_of (@base M) k = Some n -> name_of u k = Some n).
    { intros k n H. eapply ext_name; [exact X1|]. eapply ext_name; [exact X|exact H]. }
    repeat split; apply N; reflexivity.
Qed.
Print Assumptions C58_parallel_hierarchy.

(** So the class side of every class inherits the methods of Class and Object. *)
Theorem C58_class_side_inherits_class : forall M sel is_prim known avoid path s (u0 : univ M) qs answers u c,
  served sel is_prim known avoid path s u0 qs answers u -> reachable u answers c ->
  exists mc, class_of u c = Some mc /\ inherits u mc (s_class s) /\ inherits u mc (s_object s).
Proof.
  intros M sel is_prim known avoid path s u0 qs answers u c H R.
  assert (W : forall c, reachable u answers c -> well_made u (s_meta s) (s_object s) (s_class s) c).
  { intros d Rd. now apply (C58_parallel_hierarchy _ _ _ _ _ _ _ _ _ _ _ d H). }
  assert (RC : inherits u (s_class s) (s_object s)).
  { destruct H as (fuel & fuel' & H0 & H1).
    destruct (start_inv sel is_prim known avoid path fuel s u0 H0) as (-> & I & X).
    destruct (run_inv sel is_prim known avoid path qs fuel' u0 I) as (I1 & X1 & V). cbn [sys0 s_meta] in H1. rewrite H1 in *. cbn [fst snd] in *.
    apply (ext_inherits u0); [exact X1|]. apply (ext_inherits base); [exact X|].
    eapply inh_step; [reflexivity|apply inh_refl]. }
  assert (T : forall a b c, inherits u a b -> inherits u b c -> inherits u a c).
  { intros a b d A B. induction A as [a|a x b E A IH]; [exact B|]. eapply inh_step; eauto. }
  assert (P : exists mc, class_of u c = Some mc /\ inherits u mc (s_class s)).
  { destruct (W c R) as (_ & _ & _ & _ & _ & _ & _ & I). 
    assert (Q : forall d, inherits u c d -> d = s_object s -> exists mc, class_of u c = Some mc /\ inherits u mc (s_class s)).
    { clear I. intros d I. revert R. induction I as [c|c x d E I IH]; intros R Ed.
      - destruct (W c R) as (mc & n & A1 & A2 & A3 & A4 & A5 & A6). exists mc. split; [exact A1|].
        assert (NS : super_of u c = None).
        { subst c. destruct (super_of u (s_object s)) as [x|] eqn:E; [|reflexivity]. exfalso.
          destruct H as (fuel & fuel' & H0 & H1).
          destruct (start_inv sel is_prim known avoid path fuel s u0 H0) as (-> & J & X).
          destruct (run_inv sel is_prim known avoid path qs fuel' u0 J) as (I1 & X1 & V). cbn [sys0 s_meta] in H1. rewrite H1 in *. cbn [fst snd] in *.
          assert (L0 : 3 < length (u_cls (@base M))) by (change (length (u_cls base)) with 22; lia).
          assert (L1 := ext_length _ _ X).
          cbn [sys0 s_object] in E. rewrite (ext_super u0 u), (ext_super base u0) in E by (assumption || lia). discriminate. }
        rewrite NS in A5. destruct A5 as [_ A5]. eapply inh_step; [exact A5|apply inh_refl].
      - destruct (IH (by_super u answers c x R E) Ed) as (mx & B1 & B2).
        destruct (W c R) as (mc & n & A1 & A2 & A3 & A4 & A5 & A6). exists mc. split; [exact A1|].
        rewrite E in A5. destruct A5 as (ms & A5 & A7). eapply inh_step; [exact A7|]. congruence. }
    exact (Q _ I eq_refl). }
  destruct P as (mc & A & B). exists mc. split; [exact A|]. split; [exact B|]. eapply T; eauto.
Qed.
Print Assumptions C58_class_side_inherits_class.

(** A class loaded by name, its superclass, and a class from a text. *)
Example C58_nonvacuous : 
  fst xafter = [Ok (Some (GCls 41)); Err AttributeError; Ok None; Ok (Some (GCls 43))] /\
  name_of (snd xafter) 41 = Some (str "Named") /\ super_of (snd xafter) 43 = Some 41 /\
  well_made (snd xafter) 1 3 7 43 /\ reachable (snd xafter) (fst xafter) 39.
Proof.
  split; [vm_compute; reflexivity|]. split; [vm_compute; reflexivity|]. split; [vm_compute; reflexivity|]. split.
  - apply (C58_parallel_hierarchy _ _ _ _ _ _ _ _ _ _ _ 43 xserved). apply by_answer. vm_compute. tauto.
  - eapply by_super; [apply by_answer with (c := 41); vm_compute; tauto|vm_compute; reflexivity].
Qed.

(** * C59: a class is what its file declares *)
Section Declared.
Context {M : Type}.
Variable sel : M -> text.
Variable is_prim : M -> bool.
Variable known : text -> option (list (bool * text)).
Variable avoid : bool.
Variable path : list (text -> option (file M)).

Lemma served_D : library known path avoid -> forall s u0 qs answers u, served sel is_prim known avoid path s u0 qs answers u ->
  D sel is_prim known path (but []) u.
Proof.
  intros (Hc & Hn & Hk) s u0 qs answers u (fuel & fuel' & H0 & H1).
  destruct (start_inv sel is_prim known avoid path fuel s u0 H0) as (-> & _).
  assert (D0 := start_ok sel is_prim known avoid path Hn Hc Hk fuel sys0 u0 H0).
  assert (D1 := run_ok sel is_prim known avoid path Hn qs (but []) fuel' u0 D0).
  cbn [sys0 s_meta] in H1. now rewrite H1 in D1.
Qed.
Lemma served_E : library known path avoid -> (forall n d, find M path n = Some (Good d) -> reserved (super_name d) = false) ->
  forall s u0 qs answers u, served sel is_prim known avoid path s u0 qs answers u -> E path u.
Proof.
  intros (Hc & Hn & Hk) Hr s u0 qs answers u (fuel & fuel' & H0 & H1).
  destruct (start_inv sel is_prim known avoid path fuel s u0 H0) as (-> & _).
  assert (E0 := start_E sel is_prim known avoid path Hr Hc fuel sys0 u0 H0).
  assert (E1 := run_E sel is_prim known avoid path qs fuel' u0 E0).
  cbn [sys0 s_meta] in H1. now rewrite H1 in E1.
Qed.
End Declared.

(** The fields of a named class and of its class side, after every history: those of
    its superclass in the files, then those of its own file; instances have one slot
    for each.  For classes other than the eleven system classes the class itself has
    a slot for each class-side field. *)
Theorem C59_fields_partial : forall M sel is_prim known avoid path s (u0 : univ M) qs answers u n c,
  library known path avoid -> served sel is_prim known avoid path s u0 qs answers u ->
  glob M u n = Some (GCls c) ->
  exists d fi fc mc, find M path n = Some (Good d) /\ declares path d fi fc /\
    name_of u c = Some n /\ class_of u c = Some mc /\
    fields_of u c = Some fi /\ size_of u c = Some (length fi) /\
    fields_of u mc = Some fc /\ size_of u mc = Some (length fc) /\
    (~ system_name n -> own_slots u c = Some (length fc)).
Proof.
  intros M sel is_prim known avoid path s u0 qs answers u n c HL H G.
  destruct (served_D sel is_prim known avoid path HL s u0 qs answers u H) as (_ & Gk & _).
  destruct (Gk n c G) as (d & F & fi & fc & k & mk & [A1 A2 A3 A4 A5 A6 A7 A8 A9 A10 A11 A12 A13 A14 A15]).
  exists d, fi, fc, (pred c). split; [exact F|]. split; [exact A2|].
  unfold name_of, class_of, fields_of, size_of, own_slots. rewrite A3, A4.
  repeat (split; [congruence|]). intros S. now rewrite (A11 S).
Qed.
Print Assumptions C59_fields_partial.

(** The methods: for every selector and both sides, the value primitive of the block
    classes, a primitive of the VM where these are installed, otherwise the last
    method of that name in the file; and their holder is that class. *)
Theorem C59_methods_partial : forall M sel is_prim known avoid path s (u0 : univ M) qs answers u n c,
  library known path avoid -> served sel is_prim known avoid path s u0 qs answers u ->
  glob M u n = Some (GCls c) ->
  exists d mc, find M path n = Some (Good d) /\ class_of u c = Some mc /\ c <> mc /\
    forall x, 
      method_of u c x = option_map (fun k => {| e_code := k; e_holder := c |}) (expected sel is_prim known n d false x) /\
      method_of u mc x = option_map (fun k => {| e_code := k; e_holder := mc |}) (expected sel is_prim known n d true x).
Proof.
  intros M sel is_prim known avoid path s u0 qs answers u n c HL H G.
  destruct (served_D sel is_prim known avoid path HL s u0 qs answers u H) as (_ & Gk & _).
  destruct (Gk n c G) as (d & F & fi & fc & k & mk & [A1 A2 A3 A4 A5 A6 A7 A8 A9 A10 A11 A12 A13 A14 A15]).
  exists d, (pred c). split; [exact F|]. unfold class_of, method_of. rewrite A3, A4. split; [exact A5|].
  split; [apply not_eq_sym, odd_pred; exact A1|].
  intros x. unfold ClsDecl.final, but, mem in A14, A15. cbn [existsb negb] in A14, A15.
  unfold tab, entry_at in A14, A15. rewrite A14, A15. split; reflexivity.
Qed.
Print Assumptions C59_methods_partial.

(** Which file that is: the one in the first directory of the class path that has a file of
    that name; files in later directories are not looked at. *)
Lemma find_first : forall M (path : list (text -> option (file M))) n f, find M path n = Some f <->
  exists before dir after, path = before ++ dir :: after /\ (forall e, In e before -> e n = None) /\ dir n = Some f.
Proof.
  intros M path n f. induction path as [|d r IH]; cbn [find].
  - split; [discriminate|]. intros ([|b before] & dir & after & E & _); discriminate.
  - split.
    + destruct (d n) as [g|] eqn:Ed; intros H.
      * exists [], d, r. split; [reflexivity|]. split; [intros e []|congruence].
      * apply IH in H. destruct H as (before & dir & after & -> & Hb & Hd). exists (d :: before), dir, after.
        split; [reflexivity|]. split; [intros e [<-|He]; auto|exact Hd].
    + intros ([|b before] & dir & after & E & Hb & Hd); inversion E; subst.
      * now rewrite Hd.
      * rewrite (Hb b (or_introl eq_refl)). apply IH. exists before, dir, after. split; [reflexivity|]. split; [|exact Hd].
        intros e He. apply Hb. now right.
Qed.
Lemma find_nowhere : forall M (path : list (text -> option (file M))) n, find M path n = None <-> forall e, In e path -> e n = None.
Proof.
  intros M path n. induction path as [|d r IH]; cbn [find].
  - split; [intros _ e []|reflexivity].
  - destruct (d n) as [g|] eqn:Ed; split.
    + discriminate.
    + intros H. rewrite (H d (or_introl eq_refl)) in Ed. discriminate.
    + intros H e [<-|He]; [exact Ed|now apply IH].
    + intros H. apply IH. intros e He. apply H. now right.
Qed.
Theorem C59_first_directory_partial : forall M sel is_prim known avoid path s (u0 : univ M) qs answers u n c,
  library known path avoid -> served sel is_prim known avoid path s u0 qs answers u ->
  glob M u n = Some (GCls c) ->
  exists before dir after d mc, path = before ++ dir :: after /\ (forall e, In e before -> e n = None) /\ dir n = Some (Good d) /\
    class_of u c = Some mc /\
    forall x, 
      option_map e_code (method_of u c x) = expected sel is_prim known n d false x /\
      option_map e_code (method_of u mc x) = expected sel is_prim known n d true x.
Proof.
  intros M sel is_prim known avoid path s u0 qs answers u n c HL H G.
  destruct (C59_methods_partial M sel is_prim known avoid path s u0 qs answers u n c HL H G) as (d & mc & F & C & _ & X).
  apply find_first in F. destruct F as (before & dir & after & E & Hb & Hd).
  exists before, dir, after, d, mc. split; [exact E|]. split; [exact Hb|]. split; [exact Hd|]. split; [exact C|].
  intros x. destruct (X x) as [-> ->]. split; now destruct (expected sel is_prim known n d _ x).
Qed.
Print Assumptions C59_first_directory_partial.
(** A library in two directories: the second Counter is not seen. *)
Example C59_first_directory_nonvacuous :
  find xm [fun _ => None; tget xfiles; tget [xcls (str "Counter") None [] [] [] []]] (str "Counter") = tget xfiles (str "Counter") /\
  tget xfiles (str "Counter") <> tget [xcls (str "Counter") None [] [] [] []] (str "Counter").
Proof. split; [vm_compute; reflexivity|vm_compute; discriminate]. Qed.

(** The superclass is the class the file names, if no file names as superclass one
    of the names that start-up binds anew. *)
Theorem C59_superclass_partial : forall M sel is_prim known avoid path s (u0 : univ M) qs answers u n c,
  library known path avoid ->
  (forall m d, find M path m = Some (Good d) -> reserved (super_name d) = false) ->
  served sel is_prim known avoid path s u0 qs answers u -> glob M u n = Some (GCls c) ->
  exists d, find M path n = Some (Good d) /\
    (super_name d = str "nil" /\ super_of u c = None \/
     super_name d <> str "nil" /\ exists sc, glob M u (super_name d) = Some (GCls sc) /\ super_of u c = Some sc).
Proof.
  intros M sel is_prim known avoid path s u0 qs answers u n c HL Hr H G.
  destruct (served_D sel is_prim known avoid path HL s u0 qs answers u H) as (_ & Gk & _).
  destruct (Gk n c G) as (d & F & _). exists d. split; [exact F|].
  apply (E_super path (proj1 HL) u n c d); try assumption.
  exact (served_E sel is_prim known avoid path HL Hr s u0 qs answers u H).
Qed.
Print Assumptions C59_superclass_partial.

(** Two names never share a class. *)
Theorem C59_one_class_per_name_partial : forall M sel is_prim known avoid path s (u0 : univ M) qs answers u n m c,
  library known path avoid -> served sel is_prim known avoid path s u0 qs answers u ->
  glob M u n = Some (GCls c) -> glob M u m = Some (GCls c) -> n = m.
Proof.
  intros M sel is_prim known avoid path s u0 qs answers u n m c HL H Gn Gm.
  destruct (served_D sel is_prim known avoid path HL s u0 qs answers u H) as (_ & Gk & _).
  destruct (Gk n c Gn) as (d & _ & Hd). destruct (Gk m c Gm) as (d' & _ & Hd').
  eapply desc_names; eauto.
Qed.
Print Assumptions C59_one_class_per_name_partial.

(** A class given to the shell as text: its fields follow those of the class it
    names; its methods are the written ones and nothing else. *)
Theorem C59_shell_class_partial : forall M sel is_prim known avoid path s (u0 : univ M) qs answers u fuel f c u',
  library known path avoid -> served sel is_prim known avoid path s u0 qs answers u ->
  serve M sel is_prim known avoid path fuel (s_meta s) (Shell M f) u = (Ok (Some (GCls c)), u') ->
  exists d fi fc mc, f = Good d /\ declares path d fi fc /\ 
    name_of u' c = Some (c_name M d) /\ class_of u' c = Some mc /\
    fields_of u' c = Some fi /\ size_of u' c = Some (length fi) /\ fields_of u' mc = Some fc /\
    forall x, 
      method_of u' c x = option_map (fun m => {| e_code := Written m; e_holder := c |}) (written sel (c_methods M d) x) /\
      method_of u' mc x = option_map (fun m => {| e_code := Written m; e_holder := mc |}) (written sel (c_class_methods M d) x).
Proof.
  intros M sel is_prim known avoid path s u0 qs answers u fuel f c u' HL H S.
  assert (Hs : s = sys0) by (destruct H as (fl & _ & H0 & _); now apply (start_inv sel is_prim known avoid path fl s u0)).
  subst s. cbn [sys0 s_meta] in S.
  assert (Du := served_D sel is_prim known avoid path HL sys0 u0 qs answers u H).
  destruct HL as (Hc & Hn & Hk).
  destruct (shell_ok sel is_prim known avoid path Hn (but []) fuel f u c u' Du S)
    as (d & Ef & fi & fc & k & mk & [A1 A2 A3 A4 A5 A6 A7 A8 A9 A10 A11 A12 A13 A14 A15]).
  exists d, fi, fc, (pred c). split; [exact Ef|]. split; [exact A2|].
  unfold name_of, class_of, fields_of, size_of, method_of. rewrite A3, A4.
  repeat (split; [congruence|]). intros x. unfold tab, entry_at, bare in A14, A15. rewrite A14, A15.
  split; now destruct (written sel _ x).
Qed.
Print Assumptions C59_shell_class_partial.

(** What a class is does not depend on what was loaded before it, in which order, or
    which loads failed. *)
Lemma declares_fun : forall M (path : list (text -> option (file M))) d fi fc, declares path d fi fc ->
  forall gi gc, declares path d gi gc -> fi = gi /\ fc = gc.
Proof.
  intros M path d fi fc H. induction H as [d H|d b fi fc H F H1 IH]; intros gi gc G; inversion G as [d' G0|d' b' hi hc G0 G1 G2]; subst.
  - now split.
  - contradiction.
  - contradiction.
  - assert (b' = b) by congruence. subst b'. destruct (IH _ _ G2) as [-> ->]. now split.
Qed.
Theorem C59_order_independent_partial : forall M sel is_prim known avoid path s1 s2 (v1 v2 : univ M) qs1 qs2 an1 an2 u1 u2 n c1 c2,
  library known path avoid ->
  served sel is_prim known avoid path s1 v1 qs1 an1 u1 -> served sel is_prim known avoid path s2 v2 qs2 an2 u2 ->
  glob M u1 n = Some (GCls c1) -> glob M u2 n = Some (GCls c2) ->
  exists m1 m2, class_of u1 c1 = Some m1 /\ class_of u2 c2 = Some m2 /\
    fields_of u1 c1 = fields_of u2 c2 /\ fields_of u1 m1 = fields_of u2 m2 /\ size_of u1 c1 = size_of u2 c2 /\
    forall x, option_map e_code (method_of u1 c1 x) = option_map e_code (method_of u2 c2 x) /\
              option_map e_code (method_of u1 m1 x) = option_map e_code (method_of u2 m2 x).
Proof.
  intros M sel is_prim known avoid path s1 s2 v1 v2 qs1 qs2 an1 an2 u1 u2 n c1 c2 HL H1 H2 G1 G2.
  destruct (C59_fields_partial _ _ _ _ _ _ _ _ _ _ _ _ _ HL H1 G1) as (d1 & fi1 & fc1 & m1 & F1 & D1 & A1 & A2 & A3 & A4 & A5 & _).
  destruct (C59_fields_partial _ _ _ _ _ _ _ _ _ _ _ _ _ HL H2 G2) as (d2 & fi2 & fc2 & m2 & F2 & D2 & B1 & B2 & B3 & B4 & B5 & _).
  destruct (C59_methods_partial _ _ _ _ _ _ _ _ _ _ _ _ _ HL H1 G1) as (e1 & l1 & J1 & K1 & _ & X1).
  destruct (C59_methods_partial _ _ _ _ _ _ _ _ _ _ _ _ _ HL H2 G2) as (e2 & l2 & J2 & K2 & _ & X2).
  assert (d2 = d1) by congruence. assert (e1 = d1) by congruence. assert (e2 = d1) by congruence. subst d2 e1 e2.
  assert (l1 = m1) by congruence. assert (l2 = m2) by congruence. subst l1 l2.
  destruct (declares_fun _ _ _ _ _ D1 _ _ D2) as [-> ->].
  exists m1, m2. repeat (split; [congruence|]). intros x. destruct (X1 x) as [-> ->]. destruct (X2 x) as [-> ->].
  split; [now destruct (expected sel is_prim known n d1 false x)|now destruct (expected sel is_prim known n d1 true x)].
Qed.
Print Assumptions C59_order_independent_partial.

Example C59_nonvacuous : library xknown xpath false /\
  glob xm (snd xafter) (str "Named") = Some (GCls 41) /\
  fields_of (snd xafter) 41 = Some [str "count"; str "name"] /\ 
  fields_of (snd xafter) 40 = Some [str "made"; str "last"] /\ own_slots (snd xafter) 41 = Some 2 /\
  super_of (snd xafter) 41 = Some 39 /\ glob xm (snd xafter) (str "Counter") = Some (GCls 39) /\
  (forall n d, find xm xpath n = Some (Good d) -> reserved (super_name d) = false) /\
  (* a later method of the same name, a primitive in place of a method, a value primitive *)
  option_map e_code (method_of (snd xafter) 41 (str "inc")) = Some (Written (str "inc", true)) /\
  option_map e_code (method_of (snd xafter) 15 (str "max:")) = Some (Builtin (str "Integer") (str "max:")) /\
  (exists b, glob xm (snd xafter) (str "Block1") = Some (GCls b) /\
     option_map e_code (method_of (snd xafter) b (str "value")) = Some (BlockValue 1)).
Proof.
  split; [exact xlibrary|]. repeat (split; [vm_compute; reflexivity|]). split; [exact xreserved|].
  repeat (split; [vm_compute; reflexivity|]).
  eexists. split; vm_compute; reflexivity.
Qed.

(** The other way round for the class side of the system classes: whatever class-side
    fields their files declare, the class has no slot for any of them. *)
Theorem C59_system_class_side_fields_refuted : forall M sel is_prim known avoid path s (u0 : univ M) qs answers u n c,
  library known path avoid ->
  (forall m d, find M path m = Some (Good d) -> reserved (super_name d) = false) ->
  served sel is_prim known avoid path s u0 qs answers u ->
  system_name n -> glob M u n = Some (GCls c) ->
  own_slots u c = Some 0.
Proof.
  intros M sel is_prim known avoid path s u0 qs answers u n c HL Hr H Sy G.
  destruct (served_E sel is_prim known avoid path HL Hr s u0 qs answers u H) as (_ & _ & G0 & X).
  destruct (system_in n Sy) as (c' & K). assert (c' = c) by (assert (Y := G0 n c' K); congruence). subst c'.
  destruct (base_at (M := M) n c K) as (k & mk & _ & Bk & _).
  assert (Z : forallb (fun p => match nth_error (u_cls (@base M)) (snd p) with Some k => Nat.eqb (k_slots k) 0 | None => true end) sysids = true)
    by (vm_compute; reflexivity).
  rewrite forallb_forall in Z. specialize (Z _ K). cbn [snd] in Z. rewrite Bk in Z. apply Nat.eqb_eq in Z.
  destruct (X c k Bk) as (k' & Ek & _ & _ & _ & Sl & _). unfold own_slots. rewrite Ek. congruence.
Qed.
Print Assumptions C59_system_class_side_fields_refuted.
Definition yfiles : list (text * file xm) :=
  xcls (str "Array") None [] [] [str "shared"] [] :: xfiles.
Example C59_system_class_side_fields_witness :
  exists u, start xm fst snd xknown false [tget yfiles] 9 empty = (Ok sys0, u) /\
    glob xm u (str "Array") = Some (GCls 9) /\ fields_of u 8 = Some [str "shared"] /\ own_slots u 9 = Some 0.
Proof. eexists. split; [vm_compute; reflexivity|]. repeat split; vm_compute; reflexivity. Qed.

(** Without the names of the superclasses that the VM assigns, the file is not
    followed: a library in which Symbol names Object has Symbol below String all the
    same, and its fields do not follow those of String. *)
Definition zfiles : list (text * file xm) :=
  xcls (str "String") None [str "cached"] [] [] [] :: xcls (str "Symbol") None [str "own"] [] [] [] :: xfiles.
Theorem C59_system_superclass_refuted : exists u, start xm fst snd xknown false [tget zfiles] 9 empty = (Ok sys0, u) /\
  exists c sc d, glob xm u (str "Symbol") = Some (GCls c) /\ glob xm u (str "String") = Some (GCls sc) /\
    find xm [tget zfiles] (str "Symbol") = Some (Good d) /\ super_name d = str "Object" /\
    super_of u c = Some sc /\ fields_of u sc = Some [str "cached"] /\ fields_of u c = Some [str "own"].
Proof.
  eexists. split; [vm_compute; reflexivity|]. exists 11, 19. eexists.
  repeat (split; [vm_compute; reflexivity|]). vm_compute. reflexivity.
Qed.
Print Assumptions C59_system_superclass_refuted.

(** * C60: loading *)
(** Asking again for a class gives the same answer and changes nothing. *)
Theorem C60_load_again : forall M sel is_prim known avoid path fuel meta n (u u' : univ M) a,
  load_class M sel is_prim known avoid path fuel meta n u = (Ok a, u') ->
  forall fuel', load_class M sel is_prim known avoid path (S fuel') meta n u' = (Ok a, u').
Proof. intros M sel is_prim known avoid path fuel meta n u u' a H fuel'. eapply load_again; eauto. Qed.
Print Assumptions C60_load_again.

(** And so after any further history in which it was answered with a class: the same
    class, as it was. *)
Theorem C60_same_class_later : forall M sel is_prim known avoid path fuel meta n (u u' : univ M) c,
  load_class M sel is_prim known avoid path fuel meta n u = (Ok (Some (GCls c)), u') ->
  forall fuel1 qs fuel2, let w := snd (run M sel is_prim known avoid path fuel1 meta qs u') in
  load_class M sel is_prim known avoid path (S fuel2) meta n w = (Ok (Some (GCls c)), w) /\
  (forall i, i < length (u_cls u') -> nth_error (u_cls w) i = nth_error (u_cls u') i).
Proof.
  intros M sel is_prim known avoid path fuel meta n u u' c H fuel1 qs fuel2 w.
  assert (W := grown_run sel is_prim known avoid path qs fuel1 meta u'). fold w in W.
  apply load_class_found in H. split.
  - cbn [load_class]. now rewrite (proj2 W _ _ H).
  - intros i L. destruct (nth_error (u_cls u') i) as [k|] eqn:K; [eapply grown_nth; eauto|].
    apply nth_error_None in K. lia.
Qed.
Print Assumptions C60_same_class_later.

(** No request, successful or not, alters a class that is there or a global that has a
    value. *)
Theorem C60_others_untouched : forall M sel is_prim known avoid path fuel meta qs (u : univ M),
  only_grown u (snd (run M sel is_prim known avoid path fuel meta qs u)).
Proof. intros. apply grown_run. Qed.
Print Assumptions C60_others_untouched.

(** Loading ends if the chain of superclasses still to be loaded does, and its result
    is then settled; ... *)
Theorem C60_load_ends_partial : forall M sel is_prim known avoid path meta n (u : univ M) k,
  chain path u n k ->
  exists r, fst r <> Err OutOfFuel /\
    forall fuel, k < fuel -> load_class M sel is_prim known avoid path fuel meta n u = r.
Proof.
  intros M sel is_prim known avoid path meta n u k C.
  assert (St := chain_settled sel is_prim known avoid path u n k C meta).
  exists (load_class M sel is_prim known avoid path (S k) meta n u). split; [exact St|].
  intros fuel L. apply load_class_mono; [lia|exact St].
Qed.
Print Assumptions C60_load_ends_partial.
(** ... and only then: with a cycle among the superclasses it never does. *)
Theorem C60_cyclic_superclasses_refuted : forall M sel is_prim known avoid path meta (C : text -> Prop) (u : univ M),
  (forall n, C n -> glob M u n = None /\ exists f s, find M path n = Some f /\
     file_super f = Some s /\ s <> str "nil" /\ C s) ->
  forall fuel n, C n -> load_class M sel is_prim known avoid path fuel meta n u = (Err OutOfFuel, u).
Proof. intros. eapply cycle_unsettled; eauto. Qed.
Print Assumptions C60_cyclic_superclasses_refuted.

(** What the answer is.  No class exactly if there is no file; a class whose file
    names nil as its superclass, which only Object may, fails. *)
Theorem C60_no_class_iff_no_file : forall M sel is_prim known avoid path meta n (u : univ M),
  glob M u n = None ->
  ((exists u', load_class M sel is_prim known avoid path 1 meta n u = (Ok None, u')) <-> forall e, In e path -> e n = None) /\
  (forall fuel u', load_class M sel is_prim known avoid path fuel meta n u = (Ok None, u') -> 
     (forall e, In e path -> e n = None) /\ u_cls u' = u_cls u /\ forall m, glob M u' m = glob M u m).
Proof.
  intros M sel is_prim known avoid path meta n u G. rewrite <- find_nowhere.
  assert (A : forall fuel u', load_class M sel is_prim known avoid path fuel meta n u = (Ok None, u') -> 
     find M path n = None /\ u_cls u' = u_cls u /\ forall m, glob M u' m = glob M u m).
  { intros fuel u' H. apply load_class_missing in H. destruct H as (F & Hc & Hg & _). split; [exact F|]. split; [exact Hc|].
    intros m. unfold glob. rewrite Hg, tget_tset. destruct (text_eqb n m) eqn:T; [|reflexivity].
    apply text_eqb_eq in T. subst m. symmetry. exact G. }
  split; [|intros fuel u' H; destruct (A fuel u' H) as (F & R); split; [now apply find_nowhere|exact R]].
  split; [intros (u' & H); now apply (A 1 u')|].
  intros F. eexists. cbn [load_class]. rewrite G. unfold load_file. rewrite F. reflexivity.
Qed.
Print Assumptions C60_no_class_iff_no_file.
Theorem C60_nil_superclass_refuted : forall M sel is_prim known avoid path s (u0 : univ M) qs answers u fuel n d,
  served sel is_prim known avoid path s u0 qs answers u ->
  glob M u n = None -> find M path n = Some (Good d) -> super_name d = str "nil" ->
  load_class M sel is_prim known avoid path (S fuel) (s_meta s) n u = (Err AttributeError, u).
Proof.
  intros M sel is_prim known avoid path s u0 qs answers u fuel n d (fl & fl' & H0 & H1) G F N.
  destruct (start_inv sel is_prim known avoid path fl s u0 H0) as (-> & I & X).
  destruct (run_inv sel is_prim known avoid path qs fl' u0 I) as (I1 & _). cbn [sys0 s_meta] in *. rewrite H1 in I1. cbn [snd] in I1.
  cbn [load_class]. rewrite G. apply andthen_err. unfold load_file. rewrite F. apply andthen_err.
  cbn [compile]. assert (S : superclass M (load_class M sel is_prim known avoid path fuel 1) (c_super M d) u = (Ok None, u)).
  { unfold superclass. change (match c_super M d with Some n => n | None => t_Object end) with (super_name d). now rewrite N. }
  rewrite (andthen_step _ _ _ _ _ _ _ S). unfold assemble.
  destruct (nth_error (u_cls u) 1) as [k|] eqn:K.
  - rewrite (andthen_step _ _ _ _ _ _ _ (get_some 1 u k K)). reflexivity.
  - destruct (i_meta u I1) as [_ L]. apply nth_error_None in K. lia.
Qed.
Print Assumptions C60_nil_superclass_refuted.

Example C60_nonvacuous :
  chain xpath xuniv (str "Named") 2 /\
  fst (load_class xm fst snd xknown false xpath 9 1 (str "Named") xuniv) = Ok (Some (GCls 41)) /\
  (let C n := n = str "Egg" \/ n = str "Hen" in
   forall n, C n -> glob xm xuniv n = None /\ exists f s, find xm xpath n = Some f /\
     file_super f = Some s /\ s <> str "nil" /\ C s) /\
  glob xm xuniv (str "Odd") = None /\
  (exists d, find xm xpath (str "Odd") = Some (Good d) /\ super_name d = str "nil").
Proof.
  split.
  { eapply ch_super; [vm_compute; reflexivity|vm_compute; reflexivity|].
    eapply ch_super; [vm_compute; reflexivity|vm_compute; reflexivity|].
    eapply ch_loaded. vm_compute. reflexivity. }
  split; [vm_compute; reflexivity|]. split.
  { cbn zeta beta. intros n [-> | ->]; (split; [vm_compute; reflexivity|]).
    - eexists. exists (str "Hen"). repeat (split; [vm_compute; reflexivity|]). split; [discriminate|now right].
    - eexists. exists (str "Egg"). repeat (split; [vm_compute; reflexivity|]). split; [discriminate|now left]. }
  split; [vm_compute; reflexivity|]. eexists. split; vm_compute; reflexivity.
Qed.
