(** Theorems about invoking primitives. *)
From Coq Require Import ZArith Bool String List Arith Lia.
From Verif Require Import Base TxtModel TxtSpec TxtProofs TxtProps PrmModel PrmSpec.
Import ListNotations.
Open Scope nat_scope.
Open Scope list_scope.

Lemma takes_arity sel n : takes sel n -> number_of_signature_arguments sel = S n.
Proof.
  destruct (C28_arity_from_spelling sel) as [A B]. intros [[S ->]|[S ->]].
  - exact (A S).
  - exact (B S).
Qed.
Lemma arity_takes sel : takes sel (pred (number_of_signature_arguments sel)).
Proof.
  unfold takes. rewrite <- is_binary_spec. unfold number_of_signature_arguments.
  destruct (is_binary_signature sel) eqn:E; [left; auto|right].
  split; [discriminate|]. rewrite count_colons_spec. cbn. lia.
Qed.

Definition good (x : row) : bool :=
  (String.eqb (snd x) "restart" || String.eqb (snd x) "invokeOn:with:" ||
   match snd (fst x), number_of_signature_arguments (snd x) with
   | Unary, 1 => true | Binary, 2 => true | Ternary, 3 => true
   | Nary, S (S (S (S _))) => true | _, _ => false
   end)%bool.

(** * C65 *)
(** A primitive made for the number of arguments of its selector gets the receiver and the
    arguments, in order, in both interpreters; in the bytecode interpreter its answer takes their
    place on the stack. *)
Theorem C65_send_partial : forall (W : Type) (say : string -> W -> W) p f r args w,
  p_fn p = Some f -> takes (p_sig p) (length args) -> suits (p_shape p) (length args) ->
  ast_send say p r args w = match f (r :: args) w with Ok (v, w) => Ok (Some v, w) | Err e => Err e end
  /\ forall rest, bc_send say p (rev args ++ r :: rest) w =
       match f (r :: args) w with Ok (v, w) => Ok (v :: rest, w) | Err e => Err e end.
Proof.
  intros W say [sig sh fn] f r args w F T S. cbn [p_fn p_sig p_shape] in *. subst fn.
  apply takes_arity in T. destruct sh; cbn [suits] in S.
  - destruct args; [|discriminate]. unfold bc_send. cbn [p_sig]. rewrite T. split; reflexivity.
  - destruct args as [|a [|]]; try discriminate. unfold bc_send. cbn [p_sig]. rewrite T. split; reflexivity.
  - destruct args as [|a [|b [|]]]; try discriminate. unfold bc_send. cbn [p_sig]. rewrite T. split; reflexivity.
  - split.
    + destruct args as [|a [|b [|c args]]]; cbn [length] in S; try lia. reflexivity.
    + intros rest. unfold bc_send. cbn [p_sig]. rewrite T.
      destruct args as [|a [|b [|c args]]]; cbn [length] in S; try lia.
      set (l := a :: b :: c :: args) in *.
      assert (E : invoke_n say {| p_sig := sig; p_shape := Nary; p_fn := Some f |} (rev l ++ r :: rest) w =
                  match f (r :: l) w with Ok (v, w) => Ok (v :: rest, w) | Err e => Err e end).
      { unfold invoke_n. cbn [p_shape p_fn p_sig]. rewrite T.
        assert (L : length (rev l ++ [r]) = Datatypes.S (length l)) by (rewrite app_length, rev_length; cbn; lia).
        replace (rev l ++ r :: rest) with ((rev l ++ [r]) ++ rest) by (rewrite <- app_assoc; reflexivity).
        rewrite <- L, firstn_app, Nat.sub_diag, firstn_all, firstn_O, app_nil_r.
        rewrite skipn_app, Nat.sub_diag, skipn_all, skipn_O. cbn [app].
        rewrite rev_app_distr, rev_involutive. reflexivity. }
      assert (L4 : exists k, length l = Datatypes.S (Datatypes.S (Datatypes.S k))) by (exists (length args); reflexivity).
      destruct L4 as [k ->]. exact E.
Qed.
Print Assumptions C65_send_partial.

(** The primitives the VM provides are made for the number of arguments of their selectors, with
    two exceptions. *)
Theorem C65_provided_partial : forall i cls sd sh sel, In (sd, sh, sel) (provided i cls) ->
  sel <> "restart"%string -> sel <> "invokeOn:with:"%string ->
  exists n, takes sel n /\ suits sh n.
Proof.
  assert (G : forall i cls, forallb good (provided i cls) = true).
  { intros i cls. unfold provided.
    repeat (destruct (String.eqb cls _); [destruct i; vm_compute; reflexivity|]). reflexivity. }
  intros i cls sd sh sel I N1 N2.
  pose proof (proj1 (forallb_forall _ _) (G i cls) _ I) as X. unfold good in X. cbn [fst snd] in X.
  apply String.eqb_neq in N1, N2. rewrite N1, N2 in X. cbn [orb] in X.
  exists (pred (number_of_signature_arguments sel)). split; [apply arity_takes|].
  destruct sh, (number_of_signature_arguments sel) as [|[|[|[|]]]]; try discriminate; cbn; lia.
Qed.
Print Assumptions C65_provided_partial.

(** Only these classes are given primitives; a block with one, two or three parameters counted with
    the block itself is given exactly its value message.  No class is given two primitives with one
    selector on one side. *)
Theorem C65_provided_classes : forall i cls,
  (provided i cls <> [] -> In cls ["Array"; "Block"; "Class"; "Double"; "False"; "Integer"; "Method"; "Object";
     "Primitive"; "String"; "Symbol"; "System"; "True"; "Block1"; "Block2"; "Block3"]%string) /\
  provided i "Block1" = [(Instance, Unary, "value"%string)] /\
  provided i "Block2" = [(Instance, Binary, "value:"%string)] /\
  provided i "Block3" = [(Instance, Ternary, "value:with:"%string)] /\
  NoDup (map (fun x => (fst (fst x), snd x)) (provided i cls)).
Proof.
  intros i cls. split; [|split; [|split; [|split]]]; try (destruct i; vm_compute; reflexivity).
  - unfold provided. intros H.
    repeat match type of H with (if String.eqb cls ?k then _ else _) <> _ =>
      let e := fresh in destruct (String.eqb cls k) eqn:e; [apply String.eqb_eq in e; subst cls; cbn [In]; tauto|clear e] end.
    congruence.
  - unfold provided.
    assert (D : forall a b : side * string, {a = b} + {a <> b}) by (repeat decide equality).
    repeat match goal with |- NoDup (map _ (if String.eqb cls ?k then _ else _)) =>
      destruct (String.eqb cls k); [destruct i; vm_compute; repeat (constructor; [cbn [In]; intuition discriminate|]); constructor|] end.
    constructor.
Qed.
Print Assumptions C65_provided_classes.
(** The two interpreters are given the same primitives, but for the counting loops of Integer,
    primitives of the bytecode interpreter only, and invokeOn:with: of Method and Primitive,
    primitives of the AST interpreter only. *)
Theorem C65_interpreters : forall cls x,
  (In x (provided Ast cls) -> In x (provided Bc cls) \/
     snd x = "invokeOn:with:"%string /\ (cls = "Method" \/ cls = "Primitive")%string) /\
  (In x (provided Bc cls) -> In x (provided Ast cls) \/
     In (snd x) ["to:do:"; "downTo:do:"; "to:by:do:"]%string /\ cls = "Integer"%string).
Proof.
  intros cls x. unfold provided.
  repeat match goal with |- context [if String.eqb cls ?k then _ else _] =>
    let e := fresh in destruct (String.eqb cls k) eqn:e; [apply String.eqb_eq in e; subst cls; rewrite ?app_nil_r, ?in_app_iff; split; intros H|clear e] end;
  try (left; exact H); try tauto.
  - destruct H as [H|H]; [left; exact H|right]. split; [|reflexivity].
    repeat (destruct H as [<-|H]; [cbn; tauto|]). contradiction.
  - destruct H as [H|H]; [left; exact H|right]. split; [|tauto].
    repeat (destruct H as [<-|H]; [cbn; tauto|]). contradiction.
  - destruct H as [H|H]; [left; exact H|right]. split; [|tauto].
    repeat (destruct H as [<-|H]; [cbn; tauto|]). contradiction.
Qed.
Print Assumptions C65_interpreters.

(** A primitive made for another number of arguments cannot be called. *)
Lemma misfit (W : Type) (say : string -> W -> W) p r args w :
  takes (p_sig p) (length args) -> ~ suits (p_shape p) (length args) ->
  ast_send say p r args w = Err AttributeError
  /\ forall rest, bc_send say p (rev args ++ r :: rest) w = Err AttributeError.
Proof.
  intros T S. apply takes_arity in T. unfold bc_send. rewrite T.
  destruct args as [|a [|b [|c args]]]; cbn [length suits] in *.
  1-3: unfold ast_send, invoke_1, invoke_2, invoke_3; cbn [rev app];
       destruct (p_shape p); try (exfalso; apply S; reflexivity); split; reflexivity.
  unfold ast_send, invoke_args, invoke_n. destruct (p_shape p); try (split; reflexivity). exfalso. apply S. cbn. lia.
Qed.
(** So restart of a block always fails that way, not with the message written for it, and so does
    invokeOn:with: of a method or primitive in the AST interpreter. *)
Theorem C65_provided_refuted : forall (W : Type) (say : string -> W -> W) (w : W) r a b rest fn,
  (forall i, In (Instance, Nary, "restart"%string) (provided i "Block")) /\
  In (Instance, Nary, "invokeOn:with:"%string) (provided Ast "Method") /\
  In (Instance, Nary, "invokeOn:with:"%string) (provided Ast "Primitive") /\
  let restart := {| p_sig := "restart"; p_shape := Nary; p_fn := Some fn |} in
  let invoke_on := {| p_sig := "invokeOn:with:"; p_shape := Nary; p_fn := Some fn |} in
  ast_send say restart r [] w = Err AttributeError /\
  bc_send say restart (r :: rest) w = Err AttributeError /\
  ast_send say invoke_on r [a; b] w = Err AttributeError.
Proof.
  intros. split; [intros []; cbn; tauto|]. split; [cbn; tauto|]. split; [cbn; tauto|]. cbv zeta.
  split; [|split].
  - apply (misfit W say {| p_sig := "restart"; p_shape := Nary; p_fn := Some fn |} r [] w);
      [apply (arity_takes "restart")|cbn; lia].
  - apply (misfit W say {| p_sig := "restart"; p_shape := Nary; p_fn := Some fn |} r [] w);
      [apply (arity_takes "restart")|cbn; lia].
  - apply (misfit W say {| p_sig := "invokeOn:with:"; p_shape := Nary; p_fn := Some fn |} r [a; b] w);
      [apply (arity_takes "invokeOn:with:")|cbn; lia].
Qed.
Print Assumptions C65_provided_refuted.

(** A method declared primitive for which the VM has no primitive: with up to two arguments the
    send fails; with more a warning is printed, but then no object is answered in the AST
    interpreter, and the receiver and the arguments stay on the stack in the bytecode
    interpreter. *)
Theorem C65_undefined_refuted : forall (W : Type) (say : string -> W -> W) sel r args w,
  takes sel (length args) ->
  let p := empty_primitive (W := W) sel in
  let warned := say ("Warning: undefined primitive #" ++ sel ++ " called")%string w in
  (length args <= 2 -> ast_send say p r args w = Err AttributeError
     /\ forall rest, bc_send say p (rev args ++ r :: rest) w = Err AttributeError) /\
  (3 <= length args -> ast_send say p r args w = Ok (None, warned)
     /\ forall rest, bc_send say p (rev args ++ r :: rest) w = Ok (rev args ++ r :: rest, warned)).
Proof.
  intros W say sel r args w T p warned. split; intros L.
  - apply misfit; [exact T|cbn; lia].
  - apply takes_arity in T. unfold bc_send. cbn [p_sig p empty_primitive]. rewrite T.
    destruct args as [|a [|b [|c args]]]; cbn [length] in L; try lia. split; reflexivity.
Qed.
Print Assumptions C65_undefined_refuted.

(** perform: and perform:withArguments: run a primitive as the send does, up to two arguments;
    with more they always fail. *)
Theorem C65_perform_partial : forall (W : Type) (p : prim W) f r args w,
  p_fn p = Some f -> takes (p_sig p) (length args) -> suits (p_shape p) (length args) ->
  (length args <= 2 -> perform_with_arguments p r args w = f (r :: args) w) /\
  (length args = 0 -> perform p r w = f [r] w) /\
  (2 < length args -> perform_with_arguments p r args w = Err PyException).
Proof.
  intros W p f r args w F T S. unfold perform_with_arguments, perform, invoke_1, invoke_2, invoke_3, run.
  rewrite F. destruct args as [|a [|b [|c args]]]; cbn [length] in *;
    destruct (p_shape p); cbn [suits] in S; try lia; (split; [|split]); intros; try lia; reflexivity.
Qed.
Print Assumptions C65_perform_partial.

Example C65_nonvacuous :
  let say := fun s (w : list string) => s :: w in
  let put : effect := fun l w => match l with [r; i; v] => Ok (v, "put"%string :: w) | _ => Err TypeError end in
  let at_put := {| p_sig := "at:put:"; p_shape := Ternary; p_fn := Some put |} in
  takes "at:put:" 2 /\ suits Ternary 2 /\
  In (Instance, Ternary, "at:put:"%string) (provided Bc "Array") /\
  bc_send say at_put [VTrue; VInt 1; VObj 3; VNil] [] = Ok ([VTrue; VNil], ["put"%string]) /\
  ast_send say at_put (VObj 3) [VInt 1; VTrue] [] = Ok (Some VTrue, ["put"%string]) /\
  takes "at:put:with:" 3 /\
  bc_send say (empty_primitive "at:put:with:") [VTrue; VFalse; VInt 1; VObj 3] [] =
    Ok ([VTrue; VFalse; VInt 1; VObj 3], ["Warning: undefined primitive #at:put:with: called"%string]).
Proof.
  cbv zeta. split; [apply (arity_takes "at:put:")|]. split; [reflexivity|]. split; [cbn; tauto|].
  split; [reflexivity|]. split; [reflexivity|]. split; [apply (arity_takes "at:put:with:")|reflexivity].
Qed.
