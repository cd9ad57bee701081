(** Message lookup: properties C22 to C26 and C52. *)
From Coq Require Import ZArith Bool String List Lia Floats.SpecFloat.
From Verif Require Import Base NumModel ArrModel ArrSpec ArrProofs ArrProps LkpModel LkpSpec LkpProofs.
Import ListNotations.
Open Scope nat_scope.
Open Scope list_scope.
Open Scope string_scope.

(** The state after a history, in the AST interpreter or the bytecode interpreter, at a
    call site with selector [s]. *)
Definition ast_after (s : string) (ops : list lop) (c : chain) (w : lworld) : Prop :=
  lvalid_history 0 0 ops /\ lrun ast_send s ([], empty_world) ops = Ok (c, w).
Definition bc_after (s : string) (ops : list lop) (c : chain) (w : lworld) : Prop :=
  lvalid_history 0 0 ops /\ lrun bc_send s ([], empty_world) ops = Ok (c, w).

Lemma after_wok s ops c w : ast_after s ops c w \/ bc_after s ops c w ->
  wok (classes [] ops) (object_classes [] ops) w.
Proof.
  intros [[V R]|[V R]].
  - destruct (ast_run _ _ V _ R) as [W _]. exact W.
  - destruct (bc_run _ _ V _ R) as [W _]. exact W.
Qed.

Ltac valid_hist := vm_compute; repeat constructor.
Lemma runs_ex send s ops : is_ok (lrun send s ([], empty_world) ops) = true ->
  exists ch w, lrun send s ([], empty_world) ops = Ok (ch, w).
Proof. destruct (lrun send s ([], empty_world) ops) as [[ch w]|]; [eauto|discriminate]. Qed.

(** C22: after any history, looking a selector up in a class answers the nearest
    definition, and nothing exactly if the chain has none. *)
Theorem C22_lookup_finds_nearest : forall s ops ch w c sel,
  ast_after s ops ch w \/ bc_after s ops ch w -> c < length (classes [] ops) ->
  exists r H', lookup_invokable (fuel_of (lw_heap w)) (lw_heap w) c sel = Ok (r, H')
    /\ (forall m, r = Some m <-> finds (classes [] ops) c sel m)
    /\ (r = None <-> lacks (classes [] ops) c sel).
Proof.
  intros s ops ch w c sel A Hc. apply after_wok in A.
  destruct (lookup_step _ _ _ c sel A Hc) as (r & H' & R & _ & M).
  exists r, H'. split; [exact R|]. destruct r as [m|].
  - split.
    + intros m'. split; [intros [= <-]; auto|]. intros F. f_equal. eapply finds_det; eauto.
    + split; [discriminate|]. intros L. exfalso. eapply finds_lacks; eauto.
  - destruct M as [M _]. split; [|tauto]. intros m. split; [discriminate|].
    intros F. exfalso. eapply finds_lacks; eauto.
Qed.
Print Assumptions C22_lookup_finds_nearest.

(** Exactly one method is the nearest definition, or there is none. *)
Theorem C22_nearest_is_unique : forall s ops ch w c sel,
  ast_after s ops ch w \/ bc_after s ops ch w -> c < length (classes [] ops) ->
  (exists! m, finds (classes [] ops) c sel m) \/ lacks (classes [] ops) c sel.
Proof.
  intros s ops ch w c sel A Hc. apply after_wok in A. destruct A as [(Ac & _) _].
  destruct (finds_or_lacks _ c sel Ac Hc) as [[m F]|]; auto. left. exists m. split; auto.
  intros m' F'. eapply finds_det; eauto.
Qed.
Print Assumptions C22_nearest_is_unique.

(** Object (0) defines a and dnu, A (1) overrides a and defines b, B (2) nothing;
    lookups through B fill its table first. *)
Definition C22_history : list lop :=
  [LLoad None [("a", 10); (dnu, 11)] []; LLoad (Some 0) [("a", 20); ("b", 21); ("a", 22)] [("b", 23)];
   LLoad (Some 1) [] []; LFind 2 "a"; LFind 2 dnu; LFind 2 "zz"; LNew 2; LNew 0; LSend 0; LLayout 0; LSend 0; LSend 1].
Example C22_nonvacuous :
  (exists ch w, ast_after "a" C22_history ch w) /\ (exists ch w, bc_after "a" C22_history ch w)
  /\ finds (classes [] C22_history) 2 "a" 22 /\ finds (classes [] C22_history) 2 "b" 23
  /\ finds (classes [] C22_history) 2 dnu 11 /\ lacks (classes [] C22_history) 2 "zz".
Proof.
  assert (V : lvalid_history 0 0 C22_history) by (unfold C22_history; valid_hist).
  split; [|split; [|split; [|split; [|split]]]].
  - destruct (runs_ex ast_send "a" C22_history ltac:(vm_compute; reflexivity)) as (ch & w & R). exists ch, w. split; [exact V|exact R].
  - destruct (runs_ex bc_send "a" C22_history ltac:(vm_compute; reflexivity)) as (ch & w & R). exists ch, w. split; [exact V|exact R].
  - eapply finds_up; try reflexivity. eapply finds_here; reflexivity.
  - eapply finds_up; try reflexivity. eapply finds_here; reflexivity.
  - eapply finds_up; try reflexivity. eapply finds_up; try reflexivity. eapply finds_here; reflexivity.
  - eapply lacks_up; try reflexivity. eapply lacks_up; try reflexivity. eapply lacks_root; reflexivity.
Qed.

(** C23 (AST interpreter): whatever the site has seen, a send does what the class
    definitions say; it fails exactly if not even doesNotUnderstand:arguments: is
    defined. *)
Theorem C23_ast_send_transparent : forall s ops ch w o c,
  ast_after s ops ch w -> nth_error (object_classes [] ops) o = Some c ->
  (exists out ch' w', ast_send w ch s o = Ok (out, ch', w') /\ sends (classes [] ops) c s out)
  \/ (ast_send w ch s o = Err AttributeError
      /\ lacks (classes [] ops) c s /\ lacks (classes [] ops) c dnu).
Proof.
  intros s ops ch w o c [V R] N. destruct (ast_run _ _ V _ R) as (W & St & L). cbn in *.
  destruct (ast_send_ok _ _ _ s ch o c W St L N) as [(out & ch' & w' & E & _ & _ & _ & Sd)|]; auto.
  left. eauto.
Qed.
Print Assumptions C23_ast_send_transparent.

(** In a system whose classes all understand doesNotUnderstand:arguments: (Object
    defines it), every history runs. *)
Theorem C23_ast_histories_run : forall s ops,
  lvalid_history 0 0 ops -> (forall c, ~ lacks (classes [] ops) c dnu) ->
  exists ch w, ast_after s ops ch w.
Proof.
  intros s ops V D. destruct (ast_run_total s ops V D) as [[ch w] R]. exists ch, w. split; auto.
Qed.
Print Assumptions C23_ast_histories_run.

(** C23 (bytecode interpreter), partial: a send does what the class definitions say
    unless the receiver is stale and the site has met a message not understood (this
    send included), and then it always fails. *)
Theorem C23_bc_send_transparent_partial : forall s ops ch w o c,
  bc_after s ops ch w -> nth_error (object_classes [] ops) o = Some c ->
  ~ (stale ops o = true /\ missed (ops ++ [LSend o])%list s) ->
  (exists out ch' w', bc_send w ch s o = Ok (out, ch', w') /\ sends (classes [] ops) c s out)
  \/ (bc_send w ch s o = Err AttributeError
      /\ lacks (classes [] ops) c s /\ lacks (classes [] ops) c dnu).
Proof.
  intros s ops ch w o c [V R] N Hn.
  assert (Ho : o < length (object_classes [] ops)) by (apply nth_error_Some; congruence).
  destruct (bc_send_exact s ops ch w o V (bc_run _ _ V _ R) Ho)
    as (c' & N' & [(A & B & _)|(_ & [(out & ch' & w' & E & Sd & _)|E])]).
  - tauto.
  - left. assert (c' = c) by congruence. subst. eauto.
  - right. assert (c' = c) by congruence. subst. auto.
Qed.
Print Assumptions C23_bc_send_transparent_partial.

Theorem C23_bc_send_fails_exactly : forall s ops ch w o,
  bc_after s ops ch w -> o < length (object_classes [] ops) ->
  (forall c, ~ lacks (classes [] ops) c dnu) ->
  (bc_send w ch s o = Err AttributeError <-> stale ops o = true /\ missed (ops ++ [LSend o])%list s).
Proof.
  intros s ops ch w o [V R] Ho D.
  destruct (bc_send_exact s ops ch w o V (bc_run _ _ V _ R) Ho)
    as (c & N & [(A & B & E)|(Hn & [(out & ch' & w' & E & Sd & _)|(E & _ & Ld)])]).
  - tauto.
  - split; [congruence|tauto].
  - exfalso. eapply D; eauto.
Qed.
Print Assumptions C23_bc_send_fails_exactly.

(** Two instances of one class, the first sends an unknown message; then a field write
    of the first changes the layout, and the same site is used with the second. *)
Definition C23_bad_history : list lop :=
  [LLoad None [(dnu, 11)] []; LNew 0; LNew 0; LSend 0; LLayout 0].
Theorem C23_bc_send_refuted : ~ (forall s ops ch w o c,
  bc_after s ops ch w -> nth_error (object_classes [] ops) o = Some c ->
  (forall c, ~ lacks (classes [] ops) c dnu) ->
  exists out ch' w', bc_send w ch s o = Ok (out, ch', w') /\ sends (classes [] ops) c s out).
Proof.
  intros H. destruct (runs_ex bc_send "foo" C23_bad_history ltac:(vm_compute; reflexivity)) as (ch & w & R).
  destruct (H "foo" C23_bad_history ch w 1 0) as (out & ch' & w' & E & _).
  - split; [unfold C23_bad_history; valid_hist|exact R].
  - reflexivity.
  - intros c L. assert (L0 : forall c, lacks (classes [] C23_bad_history) c dnu -> c = 0).
    { intros c0 L0. inversion L0; destruct c0 as [|[|]]; auto; discriminate. }
    pose proof (L0 _ L). subst. inversion L; subst; cbn in *; repeat match goal with
      [ H : Some _ = Some _ |- _ ] => injection H as <- end; discriminate.
  - vm_compute in R. injection R as <- <-. vm_compute in E. discriminate.
Qed.
Print Assumptions C23_bc_send_refuted.

Definition C23_history : list lop :=
  [LLoad None [("a", 10); (dnu, 11)] []; LLoad (Some 0) [("a", 20)] []; LLoad (Some 1) [] [];
   LNew 0; LNew 1; LNew 2; LNew 2; LSend 0; LSend 1; LSend 2; LLayout 2; LSend 3; LSend 2].
Example C23_nonvacuous :
  (exists ch w, bc_after "a" C23_history ch w)
  /\ (exists ch w, ast_after "a" C23_history ch w)
  /\ stale C23_history 3 = false /\ stale (firstn 11 C23_history) 3 = true
  /\ (st <- lrun bc_send "a" ([], empty_world) C23_history ;;
      r <- bc_send (snd st) (fst st) "a" 3 ;; Ok (fst (fst r))) = Ok (Runs 20)
  /\ (st <- lrun ast_send "zork" ([], empty_world) C23_history ;;
      r <- ast_send (snd st) (fst st) "zork" 3 ;; Ok (fst (fst r))) = Ok (RunsDnu 11).
Proof.
  assert (V : lvalid_history 0 0 C23_history) by (unfold C23_history; valid_hist).
  split; [|split; [|split; [|split; [|split]]]].
  - destruct (runs_ex bc_send "a" C23_history ltac:(vm_compute; reflexivity)) as (ch & w & R). exists ch, w. split; [exact V|exact R].
  - destruct (runs_ex ast_send "a" C23_history ltac:(vm_compute; reflexivity)) as (ch & w & R). exists ch, w. split; [exact V|exact R].
  - reflexivity.
  - reflexivity.
  - vm_compute. reflexivity.
  - vm_compute. reflexivity.
Qed.

(** C24 (AST interpreter): at most INLINE_CACHE_SIZE = 6 entries. *)
Theorem C24_ast_cache_bounded_partial : forall s ops ch w, ast_after s ops ch w -> length ch <= 6.
Proof. intros s ops ch w [V R]. destruct (ast_run _ _ V _ R) as (_ & _ & L). exact L. Qed.
Print Assumptions C24_ast_cache_bounded_partial.

(** The seventh receiver layout makes the site generic. *)
Example C24_nonvacuous :
  (st <- lrun ast_send "a" ([], empty_world) (many_receivers "a" 6) ;; Ok (length (fst st))) = Ok 6
  /\ (st <- lrun ast_send "a" ([], empty_world) (many_receivers "a" 7) ;; Ok (fst st)) = Ok [generic]
  /\ lvalid_history 0 0 (many_receivers "a" 7).
Proof. split; [vm_compute; reflexivity|split; [vm_compute; reflexivity|apply many_counts]]. Qed.

(** C24 (bytecode interpreter) is false: the cache grows with every receiver class. *)
Theorem C24_bc_cache_unbounded_refuted : forall s n, exists ops ch w,
  bc_after s ops ch w /\ length ch = n.
Proof.
  intros s n. destruct (bc_cache_grows s n) as ([ch w] & R & L).
  exists (many_receivers s n), ch, w. split; [split; [apply many_counts|exact R]|exact L].
Qed.
Print Assumptions C24_bc_cache_unbounded_refuted.

(** C25 is false: a lookup of an inherited selector adds the inherited method. *)
Theorem C25_methods_refuted : exists s ops ch w c k d,
  ast_after s ops ch w /\ nth_error (lw_heap w) c = Some k /\ nth_error (classes [] ops) c = Some d
  /\ get_instance_invokables k <> own_methods (d_methods d).
Proof.
  destruct (runs_ex ast_send "a" C22_history ltac:(vm_compute; reflexivity)) as (ch & w & R).
  assert (V : lvalid_history 0 0 C22_history) by (unfold C22_history; valid_hist).
  exists "a", C22_history, ch, w, 2.
  assert (A : ast_after "a" C22_history ch w) by (split; auto).
  vm_compute in R. injection R as <- <-. eexists _, _. split; [exact A|].
  split; [reflexivity|split; [reflexivity|discriminate]].
Qed.
Print Assumptions C25_methods_refuted.

(** C25, partial: the answer always starts with exactly the class's own methods in the
    order of the class file; whatever follows is an inherited method that the class does
    not override. *)
Theorem C25_methods_partial : forall s ops ch w c k d,
  ast_after s ops ch w \/ bc_after s ops ch w ->
  nth_error (lw_heap w) c = Some k -> nth_error (classes [] ops) c = Some d ->
  exists extra, get_instance_invokables k = (own_methods (d_methods d) ++ extra)%list
    /\ forall m, In m extra -> exists sel, defined (d_methods d) sel = None
                                        /\ finds (classes [] ops) c sel m.
Proof.
  intros s ops ch w c k d A N Nd. apply after_wok in A. destruct A as [K _].
  eapply methods_ok; eauto.
Qed.
Print Assumptions C25_methods_partial.

(** A class without superclass is never affected. *)
Theorem C25_root_methods : forall s ops ch w c k d,
  ast_after s ops ch w \/ bc_after s ops ch w ->
  nth_error (lw_heap w) c = Some k -> nth_error (classes [] ops) c = Some d -> d_super d = None ->
  get_instance_invokables k = own_methods (d_methods d).
Proof.
  intros s ops ch w c k d A N Nd Sd. apply after_wok in A. destruct A as [K _].
  destruct (methods_ok _ _ _ _ _ K N Nd) as (ext & E & X). rewrite E.
  destruct ext as [|m ext]; [apply app_nil_r|]. exfalso.
  destruct (X m (or_introl eq_refl)) as (sel & Dn & F). inversion F; subst; congruence.
Qed.
Print Assumptions C25_root_methods.

Example C25_nonvacuous :
  own_methods [("a", 20); ("b", 21); ("a", 22); ("b", 23)] = [22; 23]
  /\ (st <- lrun ast_send "a" ([], empty_world) C22_history ;;
      Ok (map get_instance_invokables (lw_heap (snd st)))) = Ok [[10; 11]; [22; 23; 11]; [22; 11]].
Proof. split; vm_compute; reflexivity. Qed.

(** C26 (bytecode interpreter, three arguments or more): the array holds exactly the
    arguments in order, and exactly they are removed from the stack. *)
Theorem C26_stack_arguments_partial : forall m h args rest,
  exists st, send_does_not_understand m (length args) (rev args ++ rest)%list = Ok (st, rest)
    /\ holds_exactly m (fst (alloc h st)) (snd (alloc h st)) args.
Proof.
  intros m h args rest. destruct (dnu_stack_ok m args rest) as (st & E & W & El).
  exists st. split; [exact E|]. apply holds_alloc; auto.
Qed.
Print Assumptions C26_stack_arguments_partial.

(** C26 for every way the array is built: exactly right iff the arguments do not mix nil
    with numbers or booleans only ([no_nil_mix]); in the bytecode interpreter this only
    matters for one or two arguments. *)
Theorem C26_generic_arguments_partial : forall m h args,
  (exists st, generic_dnu_arguments args = Ok st
     /\ holds_exactly m (fst (alloc h st)) (snd (alloc h st)) args)
  <-> no_nil_mix args = true.
Proof. intros. apply C17_from_values_iff_no_nil_mix. Qed.
Print Assumptions C26_generic_arguments_partial.

Theorem C26_cached_arguments_partial : forall m h args,
  (exists st, cached_dnu_arguments args = Ok st
     /\ holds_exactly m (fst (alloc h st)) (snd (alloc h st)) args)
  <-> no_nil_mix args = true.
Proof.
  intros m h [|a args].
  - split; auto. intros _. exists (from_size 0). split; [reflexivity|].
    apply holds_alloc; [cbn; lia|reflexivity].
  - apply C17_from_values_iff_no_nil_mix.
Qed.
Print Assumptions C26_cached_arguments_partial.

Theorem C26_bc_arguments_partial : forall m h args,
  (exists st, bc_dnu_arguments m args = Ok st
     /\ holds_exactly m (fst (alloc h st)) (snd (alloc h st)) args)
  <-> (length args <= 2 -> no_nil_mix args = true).
Proof.
  intros m h args. unfold bc_dnu_arguments. destruct (Nat.leb_spec (length args) 2).
  - rewrite (C26_generic_arguments_partial m h args). tauto.
  - split; [lia|]. intros _. destruct (dnu_stack_ok m args []) as (st & E & W & El).
    rewrite app_nil_r in E. rewrite E. exists st. split; [reflexivity|]. apply holds_alloc; auto.
Qed.
Print Assumptions C26_bc_arguments_partial.

(** C26 is false with nil among numbers. *)
Theorem C26_arguments_refuted : exists args, forall m h,
  ~ (exists st, generic_dnu_arguments args = Ok st
       /\ holds_exactly m (fst (alloc h st)) (snd (alloc h st)) args)
  /\ ~ (exists st, cached_dnu_arguments args = Ok st
       /\ holds_exactly m (fst (alloc h st)) (snd (alloc h st)) args)
  /\ ~ (exists st, bc_dnu_arguments m args = Ok st
       /\ holds_exactly m (fst (alloc h st)) (snd (alloc h st)) args).
Proof.
  exists [VInt 1; VNil]. intros m h.
  rewrite C26_generic_arguments_partial, C26_cached_arguments_partial, C26_bc_arguments_partial.
  split; [discriminate|split; [discriminate|]]. intros H. specialize (H ltac:(simpl; lia)). discriminate.
Qed.
Print Assumptions C26_arguments_refuted.

Example C26_nonvacuous :
  (r <- send_does_not_understand Translated 4 [VNil; VInt 7; VTrue; VInt 5; VStr "below"] ;; Ok (elems (fst r), snd r))
    = Ok ([VInt 5; VTrue; VInt 7; VNil], [VStr "below"])
  /\ no_nil_mix [VInt 5; VStr "x"; VNil] = true.
Proof. split; vm_compute; reflexivity. Qed.

(** C52: a super send in a method of class [c] runs the nearest definition above [c],
    the first time and (from its cache) every later time; the receiver plays no part.
    Without a definition both interpreters fail instead of sending
    doesNotUnderstand:arguments:. *)
Theorem C52_super_send_partial : forall s ops ch w c d p sel,
  ast_after s ops ch w \/ bc_after s ops ch w ->
  nth_error (classes [] ops) c = Some d -> d_super d = Some p ->
  (forall m, finds (classes [] ops) p sel m ->
     exists w', ast_super_send w None c sel = Ok (m, Some m, w')
       /\ bc_super_send w None c sel = Ok (m, Some m, w')
       /\ forall w'', ast_super_send w'' (Some m) c sel = Ok (m, Some m, w'')
            /\ bc_super_send w'' (Some m) c sel = Ok (m, Some m, w''))
  /\ (lacks (classes [] ops) p sel ->
     ast_super_send w None c sel = Err PyException /\ bc_super_send w None c sel = Err AttributeError).
Proof.
  intros s ops ch w c d p sel A Nd Sd. apply after_wok in A.
  assert (K : hok (classes [] ops) (lw_heap w)) by apply A.
  destruct K as (Ac & L & T).
  assert (Hc : c < length (lw_heap w)) by (rewrite L; apply nth_error_Some; congruence).
  destruct (nth_lt_some _ _ Hc) as [k N]. destruct (T _ _ N) as (d' & Nd' & Sk & _).
  assert (d' = d) by congruence. subst d'.
  assert (Hp : p < length (classes [] ops)) by (pose proof (Ac _ _ _ Nd Sd); lia).
  destruct (lookup_step _ _ _ p sel A Hp) as (r & H' & R & _ & M).
  unfold ast_super_send, bc_super_send. rewrite N, Sk, Sd, R. cbn [bind fst snd].
  split.
  - intros m F. destruct r as [m'|]; [|destruct M; exfalso; eapply finds_lacks; eauto].
    assert (m' = m) by (eapply finds_det; eauto). subst. cbn [invoke bind]. eexists; auto.
  - intros La. destruct r as [m'|]; [exfalso; eapply finds_lacks; eauto|]. auto.
Qed.
Print Assumptions C52_super_send_partial.

(** o perform: sel runs what a lookup in o's class finds, and fails where a send would
    run doesNotUnderstand:arguments:. *)
Theorem C52_perform_partial : forall s ops ch w o c sel,
  ast_after s ops ch w \/ bc_after s ops ch w -> nth_error (object_classes [] ops) o = Some c ->
  (forall m, finds (classes [] ops) c sel m -> exists w', prim_perform w o sel = Ok (m, w'))
  /\ (lacks (classes [] ops) c sel -> prim_perform w o sel = Err AttributeError).
Proof.
  intros s ops ch w o c sel A N. apply after_wok in A.
  destruct (wok_obj _ _ _ _ _ A N) as (l & b & Ol & Ll & _).
  destruct (layout_lookup_ok _ _ _ _ _ _ sel A Ll) as (r & H' & R & _ & M).
  unfold prim_perform, obj_layout. rewrite Ol. cbn [bind]. rewrite R. cbn [bind fst snd].
  split.
  - intros m F. destruct r as [m'|]; [|exfalso; eapply finds_lacks; eauto].
    assert (m' = m) by (eapply finds_det; eauto). subst. cbn. eauto.
  - intros La. destruct r as [m'|]; [exfalso; eapply finds_lacks; eauto|]. auto.
Qed.
Print Assumptions C52_perform_partial.

(** The full claim is false: neither falls back to doesNotUnderstand:arguments:. *)
Theorem C52_super_refuted : exists ops ch w,
  ast_after "a" ops ch w /\ nth_error (object_classes [] ops) 0 = Some 2
  /\ finds (classes [] ops) 2 dnu 11
  /\ ast_super_send w None 2 "zork" = Err PyException
  /\ bc_super_send w None 2 "zork" = Err AttributeError
  /\ prim_perform w 0 "zork" = Err AttributeError.
Proof.
  destruct (runs_ex ast_send "a" C22_history ltac:(vm_compute; reflexivity)) as (ch & w & R).
  exists C22_history, ch, w.
  assert (A : ast_after "a" C22_history ch w) by (split; [unfold C22_history; valid_hist|exact R]).
  vm_compute in R. injection R as <- <-. split; [exact A|]. split; [reflexivity|]. split.
  - eapply finds_up; try reflexivity. eapply finds_up; try reflexivity. eapply finds_here; reflexivity.
  - split; [reflexivity|split; reflexivity].
Qed.
Print Assumptions C52_super_refuted.

(** A super send in class B (2) of a, with A (1) and Object (0) both defining it. *)
Example C52_nonvacuous :
  (st <- lrun bc_send "a" ([], empty_world) C22_history ;;
   r <- bc_super_send (snd st) None 2 "a" ;; Ok (fst (fst r))) = Ok 22
  /\ (st <- lrun bc_send "a" ([], empty_world) C22_history ;;
   r <- ast_super_send (snd st) None 1 "a" ;; Ok (fst (fst r))) = Ok 10.
Proof. split; vm_compute; reflexivity. Qed.
