(** C49: the AST interpreter and the bytecode interpreter agree on methods and blocks. *)
From Coq Require Import ZArith Bool String Ascii List Lia Permutation.
From Verif Require Import Base LexModel ParseModel BcModel BcInterp BcSpec BcTab BcScope BcRun BcNest VmSpec BcProps
  AstModel AstSpec AstNode AstMerge AstGen AstRun AstSame.
Import ListNotations.
Open Scope nat_scope.
Open Scope list_scope.

(** * What the AST interpreter does *)
(** The method the AST compiler makes of a source does what the source says, with the rules of
    the AST interpreter ([ast_ops]) where the interpreters differ.  Not covered: a trivial
    method with more than two parameters, a method that is [ ^ f := x ]. *)
Theorem C49_ast_method_partial : forall S X (μ : amachine S X) ce ps ls ss ret am,
  forallb ok_src ss = true -> ok_ret ret = true ->
  forallb self_ok ss = true -> self_ret ret = true -> no_self (map fst ls) = true ->
  compile_ast ce ps ls ss ret = Ok am -> lawful (a_mach μ) ->
  (length ps <= 2 \/ exists c b, am = AMeth c b) -> answers_assignment ss ret = false ->
  forall n s, run_ast μ am n s = oeval_method ce (ast_ops μ) ss ret [Level [ls] (t_self :: ps)] n s.
Proof. intros. eapply ast_method; eauto. Qed.
Print Assumptions C49_ast_method_partial.
(** The block nodes in it, at any depth, are those of the block literals of the source, and
    evaluating one does what the statements of the block say. *)
Theorem C49_ast_blocks_partial : forall ce ps ls ss ret am,
  forallb ok_src ss = true -> ok_ret ret = true ->
  forallb self_ok ss = true -> self_ret ret = true -> no_self (map fst ls) = true ->
  compile_ast ce ps ls ss ret = Ok am ->
  exists l, Permutation l (blocks_of am) /\
    Forall2 (fun nd source =>
      label_of nd (fst source) /\
      forall S X (μ : amachine S X), lawful (a_mach μ) ->
        (length (params (fst source)) <= 2 \/ exists c l d ls na, nd = NBlk c l d ls na) ->
        forall n s, run_block μ nd n s = oeval_closure ce (ast_ops μ) (fst source) (snd source) n s)
      l (body_blocks ss ret [Level [ls] (t_self :: ps)]).
Proof.
  intros ce ps ls ss ret am O1 O2 S1 S2 Hl Hc.
  destruct (ast_blocks ce ps ls ss ret am O1 O2 S1 S2 Hl Hc) as (l & Hp & H). exists l. split; auto.
  clear -H. induction H as [|nd [b rho] l l' [E Hi] _ IH]; constructor; auto. split.
  - eapply label_node; [apply Hi|exact E].
  - intros S X μ Hμ Hna n s. apply ast_block; auto.
Qed.
Print Assumptions C49_ast_blocks_partial.

(** * The two interpreters *)
Lemma same_outcome_ext {S X A} (f f' g : nat -> S -> out S X A) s : (forall n, f n s = f' n s) -> same_outcome f g s -> same_outcome f' g s.
Proof.
  intros E [H1 H2]. split.
  - intros n Hn. rewrite <- E in *. auto.
  - intros k Hk. destruct (H2 k Hk) as [K HK]. exists K. intros j Hj. rewrite <- E. auto.
Qed.
(** A method that both compilers accept has the same outcome in both, from every state from
    which the run does not come to a point on which they differ ([quiet], AstSpec). *)
Theorem C49_method_partial : forall S X (μ : amachine S X) ce ps ls ss ret period am m s,
  forallb ok_src ss = true -> ok_ret ret = true ->
  forallb self_ok ss = true -> self_ret ret = true -> no_self (map fst ls) = true ->
  compile_ast ce ps ls ss ret = Ok am -> compile_method ce ps ls ss ret period = Ok m ->
  lawful (a_mach μ) -> agree μ 0 ->
  ((forallb single ss = true /\ single_ret ret = true) \/ commuting ce (a_mach μ)) ->
  (length ps <= 2 \/ exists c b, am = AMeth c b) -> answers_assignment ss ret = false ->
  quiet (oeval_method ce (careful_ops μ) ss ret [Level [ls] (t_self :: ps)]) s ->
  same_outcome (run_ast μ am) (run_method (a_mach μ) [] m) s.
Proof.
  intros S X μ ce ps ls ss ret period am m s O1 O2 S1 S2 Hl Ha Hm Hμ Hg Hw Hna Haa Hq.
  pose proof (C43_method_partial S X (a_mach μ) ce ps ls ss ret period m O1 O2 (in_layer_self _ Hl) Hm Hμ s) as H.
  set (rho := [Level [ls] (t_self :: ps)]) in *.
  assert (E : forall n, run_ast μ am n s = eval_method (ce_fields ce) ss ret (a_mach μ) rho n s).
  { intros n. rewrite (ast_method ce μ Hμ ps ls ss ret am) by auto. rewrite <- bc_method. fold rho. revert n.
    eapply upto_same; [exact Hq|intros n|intros n].
    - destruct Hw as [Hw|Hw].
      + eapply upto_method with (one := true); [apply near_ast; exact Hg|discriminate|reflexivity|auto].
      + eapply upto_method with (one := false); [apply near_ast; exact Hg|intros _ _; apply writes_rev; exact Hw|reflexivity|discriminate].
    - destruct Hw as [Hw|Hw].
      + eapply upto_method with (one := true); [apply near_bc; exact Hg|discriminate|reflexivity|auto].
      + eapply upto_method with (one := false); [apply near_bc; exact Hg|discriminate|reflexivity|discriminate]. }
  eapply same_outcome_ext; [intros n; symmetry; apply E|exact H].
Qed.
Print Assumptions C49_method_partial.
(** And so have its blocks: block nodes, the compiled methods of the blocks and the block
    literals of the source belong to each other, and evaluating a block has the same outcome
    in both, from every state from which the run is quiet. *)
Theorem C49_blocks_partial : forall ce ps ls ss ret period am m,
  forallb ok_src ss = true -> ok_ret ret = true ->
  forallb self_ok ss = true -> self_ret ret = true -> no_self (map fst ls) = true ->
  compile_ast ce ps ls ss ret = Ok am -> compile_method ce ps ls ss ret period = Ok m ->
  exists l, Permutation l (blocks_of am) /\
    length l = length (inside m []) /\
    Forall2 (fun both source => let '(nd, (outer, bm)) := both in
      label_of nd (fst source) /\ label_is bm (fst source) /\
      forall S X (μ : amachine S X) s, lawful (a_mach μ) -> agree μ (length (snd source)) ->
        (single (fst source) = true \/ commuting ce (a_mach μ)) ->
        (length (params (fst source)) <= 2 \/ exists c l d ls na, nd = NBlk c l d ls na) ->
        quiet (oeval_closure ce (careful_ops μ) (fst source) (snd source)) s ->
        same_outcome (run_block μ nd) (run_method (a_mach μ) outer bm) s)
      (combine l (inside m [])) (body_blocks ss ret [Level [ls] (t_self :: ps)]).
Proof.
  intros ce ps ls ss ret period am m O1 O2 S1 S2 Hl Ha Hm.
  destruct (ast_blocks ce ps ls ss ret am O1 O2 S1 S2 Hl Ha) as (l & Hp & H). exists l. split; auto.
  pose proof (compiled_inside ce true ps ls ss ret period m O1 O2 (in_layer_self _ Hl) Hm) as HB.
  assert (FL : forall A B (R : A -> B -> Prop) a b, Forall2 R a b -> length a = length b) by (induction 1; cbn [length]; congruence).
  split; [rewrite (FL _ _ _ _ _ H), (FL _ _ _ _ _ HB); reflexivity|]. clear FL. clear -H HB.
  revert HB. generalize (inside m []). induction H as [|nd [b rho] l bs [En Hi] _ IH]; intros ms HB; inversion HB as [|[outer bm] q ms' bs' HP HB']; subst; [constructor|].
  cbn [combine]. constructor; [|apply IH; exact HB'].
  split; [|split].
  - eapply label_node; [apply Hi|exact En].
  - destruct HP as (C & A & E & Hx). cbn [fst snd] in *. eapply impl_runs; [exact toy_lawful|exact Hx].
  - intros S X μ s Hμ Hg Hw Hna Hq. cbn [fst snd] in *.
    assert (HC : same_outcome (eval_closure (ce_fields ce) b rho (a_mach μ)) (run_method (a_mach μ) outer bm) s).
    { destruct HP as (C & A & E & Hx). cbn [fst snd] in *. rewrite E. eapply impl_runs; [exact Hμ|exact Hx]. }
    eapply same_outcome_ext; [intros n; symmetry|exact HC]. rewrite (ast_block ce μ Hμ nd b rho) by auto.
    assert (EB : forall n, eval_closure (ce_fields ce) b rho (a_mach μ) n s = oeval_closure ce (bc_ops (a_mach μ)) b rho n s).
    { intros k. destruct b; auto. cbn [eval_closure oeval_closure]. rewrite bc_block. reflexivity. }
    rewrite EB. revert n. pose proof (homed_ne _ (proj1 (proj2 Hi))) as Hne. cbn [snd] in Hne.
    assert (Hd : depth rho = length rho - 1) by reflexivity. assert (H0 : 0 < length rho) by (destruct rho; [congruence|cbn; lia]).
    eapply upto_same; [exact Hq|intros n|intros n].
    + destruct Hw as [Hw|Hw].
      * eapply upto_closure with (one := true); eauto; [apply near_ast; exact Hg|discriminate].
      * eapply upto_closure with (one := false); eauto; [apply near_ast; exact Hg|intros _ _; apply writes_rev; exact Hw|discriminate].
    + destruct Hw as [Hw|Hw].
      * eapply upto_closure with (one := true); eauto; [apply near_bc; exact Hg|discriminate].
      * eapply upto_closure with (one := false); eauto; [apply near_bc; exact Hg|discriminate|discriminate].
Qed.
Print Assumptions C49_blocks_partial.

(** * A machine and a method for the examples *)
(** Integers are added, subtracted and compared; other sends are traced and answer the number
    of sends so far.  Adding 1 to or subtracting 1 from something else than a number goes
    wrong, and a [^] whose home activation is gone answers 77. *)
Definition num_send (t : text) (l : list value) (s : toy) : out toy exn value :=
  let other := Done (VInt (Z.of_nat (length (t_trace s)))) (Toy (t_cells s) ((t, l) :: t_trace s)) in
  match l with
  | [VInt a; VInt b] =>
      if text_eqb t t_plus then Done (VInt (a + b)) s
      else if text_eqb t t_minus then Done (VInt (a - b)) s
      else if text_eqb t (str "<") then Done (if Z.ltb a b then VTrue else VFalse) s
      else other
  | _ => other
  end.
Definition num_inc (t : text) (v : value) (s : toy) : out toy exn value :=
  if small v then num_send t [v; VInt 1] s else Abrupt TypeError s.
Definition num_machine : machine toy exn := {|
  m_send := num_send;
  m_super := fun t l => num_send (str "super " ++ t)%list l;
  m_glob := fun t => num_send t [];
  m_blk := fun l s => Done (VObj l) s;
  m_rd := fun k v s => Done (toy_get (CVar k v) s) s;
  m_wr := fun k v x s => Done tt (toy_set (CVar k v) x s);
  m_getf := fun k i s => Done (toy_get (CFld k i) s) s;
  m_setf := fun k i v s => Done tt (toy_set (CFld k i) v s);
  m_incf := fun k i s => bind (num_inc t_plus (toy_get (CFld k i) s) s)
                           (fun v s => Done v (toy_set (CFld k i) v s));
  m_inc := num_inc t_plus;
  m_dec := num_inc t_minus;
  m_nlr := fun _ _ s => Done (VInt 77) s |}.
(** An unknown global is asked for at self, which is [d] levels out; the array of a literal
    array is the object 5. *)
Definition num_amachine (d : nat) (sup : bool) : amachine toy exn := {|
  a_mach := num_machine;
  a_glob := fun k t s => if k =? d then num_send t [] s else Abrupt AttributeError s;
  a_super := fun _ _ => sup;
  a_arr := fun _ s => Done (VObj 5) s;
  a_exn := fun e => e |}.
Lemma num_lawful d sup : lawful (a_mach (num_amachine d sup)).
Proof. intros k i s. cbn. destruct (num_inc _ _ _); reflexivity. Qed.
Lemma num_agree d sup : agree (num_amachine d sup) d.
Proof.
  split.
  - intros v s H. cbn. unfold num_inc. rewrite H. reflexivity.
  - intros v s H. cbn. unfold num_inc. rewrite H. reflexivity.
  - intros n s. cbn. rewrite Nat.eqb_refl. reflexivity.
Qed.
(** The method
      foo: x = ( | a |
        f := f + 1. a := f.
        x < a ifTrue: [ | b | b := a. self bar: [ b := b + x. x < b ifTrue: [ ^ b ]. g ] ].
        [ x < 1 ] whileFalse: [ x := x - 1 ].
        x < 5 ifTrue: [ ^ f ].
        ^ a )   *)
Definition two_inner : src :=
  SBlk 12 [] []
    [SAsgn [str "b"] (SSend false (v_ "b") (str "+") [v_ "x"]);
     SSend false (SSend false (v_ "x") (str "<") [v_ "b"]) (str "ifTrue:") [SBlk 15 [] [] [] (Some (v_ "b")) true];
     v_ "g"] None true.
Definition lit_ (z : Z) : src := SLit (SL (LV (VInt z))).
Definition two_body : list src :=
  [SAsgn [str "f"] (SInc (v_ "f")); SAsgn [str "a"] (v_ "f");
   SSend false (SSend false (v_ "x") (str "<") [v_ "a"]) (str "ifTrue:")
     [SBlk 11 [] [(str "b", 2)] [SAsgn [str "b"] (v_ "a"); SSend false (v_ "self") (str "bar:") [two_inner]] None false];
   SSend false (SBlk 13 [] [] [SSend false (v_ "x") (str "<") [lit_ 1]] None false) (str "whileFalse:")
     [SBlk 14 [] [] [SAsgn [str "x"] (SDec (v_ "x"))] None true];
   SSend false (SSend false (v_ "x") (str "<") [lit_ 5]) (str "ifTrue:") [SBlk 16 [] [] [] (Some (v_ "f")) false]].
Definition two_ast : amethod :=
  match compile_ast ex_env [str "x"] ex_locals two_body ex_ret with Ok am => am | Err _ => ATriv (ALit VNil) 0 end.
Definition two_bc : meth :=
  match compile_method ex_env [str "x"] ex_locals two_body ex_ret true with Ok m => m | Err _ => ex_meth true end.
Ltac fuel n := do 9 (destruct n as [|n]; [vm_compute; discriminate|]).
Example C49_nonvacuous :
  let μ := num_amachine 0 true in
  forallb ok_src two_body = true /\ ok_ret ex_ret = true /\
  forallb self_ok two_body = true /\ self_ret ex_ret = true /\ no_self (map fst ex_locals) = true /\
  compile_ast ex_env [str "x"] ex_locals two_body ex_ret = Ok two_ast /\
  compile_method ex_env [str "x"] ex_locals two_body ex_ret true = Ok two_bc /\
  lawful (a_mach μ) /\ agree μ 0 /\ forallb single two_body = true /\ single_ret ex_ret = true /\
  answers_assignment two_body ex_ret = false /\
  quiet (oeval_method ex_env (careful_ops μ) two_body ex_ret [Level [ex_locals] [t_self; str "x"]]) toy0 /\
  run_ast μ two_ast 100 toy0 = run_method (a_mach μ) [] two_bc 100 toy0 /\
  match run_ast μ two_ast 100 toy0 with
  | Retn v s => v = VInt 41 /\ toy_get (CVar 0 (VArg 1)) s = VInt 0 /\ length (t_trace s) = 1
  | _ => False
  end.
Proof.
  do 7 (split; [vc|]). split; [apply num_lawful|]. split; [apply num_agree|]. do 3 (split; [vc|]). split; [|split].
  - intros n s'. fuel n. vm_compute. discriminate.
  - vc.
  - vm_compute. auto.
Qed.
(** The block in it, run with b = 8 one level out. *)
Definition two_state : toy :=
  Toy [(CVar 1 (VLoc 2), VInt 8); (CVar 1 (VArg 1), VInt 9); (CFld 1 1, VInt 3)] [].
Example C49_nonvacuous_block :
  let μ := num_amachine 1 true in
  agree μ 1 /\
  match blocks_of two_ast, inside two_bc [], body_blocks two_body ex_ret [Level [ex_locals] [t_self; str "x"]] with
  | [nd], [(outer, bm)], [(b, rho)] =>
      label_of nd b /\ label_is bm b /\ length rho = 1 /\ single b = true /\ params b = [] /\
      run_block μ nd 5 (Toy [(CVar 1 (VLoc 2), VInt (-8)); (CVar 1 (VArg 1), VInt 0); (CFld 1 1, VInt 3)] []) =
        Retn (VInt 3) (Toy [(CVar 1 (VLoc 2), VInt (-8)); (CVar 1 (VLoc 2), VInt (-8)); (CVar 1 (VArg 1), VInt 0); (CFld 1 1, VInt 3)] []) /\
      quiet (oeval_closure ex_env (careful_ops μ) b rho)
        (Toy [(CVar 1 (VLoc 2), VInt (-8)); (CVar 1 (VArg 1), VInt 0); (CFld 1 1, VInt 3)] [])
  | _, _, _ => False
  end.
Proof.
  split; [apply num_agree|]. vm_compute blocks_of. vm_compute inside. vm_compute body_blocks.
  split; [reflexivity|]. split; [reflexivity|]. split; [reflexivity|]. split; [reflexivity|]. split; [reflexivity|]. split; [vc|].
  intros n s'. vm_compute. discriminate.
Qed.

(** * What is missing *)
(** The hypotheses cannot be dropped: each of the following methods is accepted by both
    compilers and behaves differently, or is accepted by one only. *)
Lemma not_same {S X A} (f g : nat -> S -> out S X A) s n j a b :
  f n s = a -> a <> Hang -> (forall k, g (j + k) s = b) -> a <> b -> ~ same_outcome f g s.
Proof.
  intros Hf Ha Hg Hab [H _]. destruct (H n) as [K HK]; [congruence|]. apply Hab. rewrite <- Hf, <- (HK (j + K)) by lia. auto.
Qed.
Definition differ (ps : list text) (ss : list src) (ret : option src) (s : toy) : Prop :=
  exists am m, compile_ast ex_env ps [] ss ret = Ok am /\ compile_method ex_env ps [] ss ret false = Ok m /\
    ~ same_outcome (run_ast (num_amachine 0 false) am) (run_method num_machine [] m) s.
Ltac differs :=
  match goal with |- differ ?ps ?ss ?ret ?s =>
    let am := eval vm_compute in (match compile_ast ex_env ps [] ss ret with Ok am => am | Err _ => ATriv (ALit VNil) 0 end) in
    let m := eval vm_compute in (match compile_method ex_env ps [] ss ret false with Ok m => m | Err _ => Meth 0 [] [] [] 0 [] 0%Z None end) in
    exists am, m; split; [vc|]; split; [vc|];
    eapply (not_same _ _ s 5 15);
      [vm_compute; reflexivity|discriminate|intros k; vm_compute; reflexivity|discriminate]
  end.
(** [ x ifTrue: [ self foo ]. ^ 3 ] where x is not a Boolean *)
Theorem C49_condition_refuted :
  differ [str "x"] [SSend false (v_ "x") (str "ifTrue:") [SBlk 1 [] [] [SSend false (v_ "self") (str "foo") []] None false]]
    (Some (lit_ 3)) toy0.
Proof. differs. Qed.
Print Assumptions C49_condition_refuted.
(** [ ^ self - 1 ] *)
Theorem C49_dec_refuted : differ [] [] (Some (SDec (v_ "self"))) toy0.
Proof. differs. Qed.
Print Assumptions C49_dec_refuted.
(** [ ^ self + (1) ] *)
Theorem C49_inc_refuted : differ [] [] (Some (SSend false (v_ "self") t_plus [lit_ 1])) toy0.
Proof. differs. Qed.
Print Assumptions C49_inc_refuted.
(** [ ^ super foo: self bar ] if there is no foo: above: the AST interpreter does not send
    bar *)
Theorem C49_super_refuted :
  differ [] [] (Some (SSend true (v_ "self") (str "foo:") [SSend false (v_ "self") (str "bar") []])) toy0.
Proof. differs. Qed.
Print Assumptions C49_super_refuted.
(** [ ^ #(1 2) ]: one array, or a new one for every evaluation *)
Theorem C49_array_refuted : differ [] [] (Some (SLit (SA [SL (LV (VInt 1)); SL (LV (VInt 2))]))) toy0.
Proof. differs. Qed.
Print Assumptions C49_array_refuted.
(** [ ^ f := x ] answers the receiver in the AST interpreter *)
Theorem C49_setter_refuted : differ [str "x"] [] (Some (SAsgn [str "f"] (v_ "x"))) toy0.
Proof. differs. Qed.
Print Assumptions C49_setter_refuted.
(** [ foo: a bar: b baz: c = ( ^ 3 ) ] *)
Theorem C49_trivial_refuted : differ [str "a"; str "b"; str "c"] [] (Some (lit_ 3)) toy0.
Proof. differs. Qed.
Print Assumptions C49_trivial_refuted.
(** Blocks: after a [^] whose home activation is gone the AST interpreter goes on in the
    block: [ x < 1 ifTrue: [ ^ 3 ]. self foo ]. *)
Definition block_differs (ps : list text) (ss : list src) (ret : option src) (d : nat) (s : toy) : Prop :=
  exists am m nd outer bm, compile_ast ex_env ps [] ss ret = Ok am /\ compile_method ex_env ps [] ss ret false = Ok m /\
    blocks_of am = [nd] /\ inside m [] = [(outer, bm)] /\
    ~ same_outcome (run_block (num_amachine d false) nd) (run_method num_machine outer bm) s.
Ltac block_differs :=
  match goal with |- block_differs ?ps ?ss ?ret ?d ?s =>
    let am := eval vm_compute in (match compile_ast ex_env ps [] ss ret with Ok am => am | Err _ => ATriv (ALit VNil) 0 end) in
    let m := eval vm_compute in (match compile_method ex_env ps [] ss ret false with Ok m => m | Err _ => Meth 0 [] [] [] 0 [] 0%Z None end) in
    let nd := eval vm_compute in (hd (NLit VNil) (blocks_of am)) in
    let p := eval vm_compute in (hd ([], m) (inside m [])) in
    exists am, m, nd, (fst p), (snd p); split; [vc|]; split; [vc|]; split; [vc|]; split; [vc|];
    eapply (not_same _ _ s 5 15);
      [vm_compute; reflexivity|discriminate|intros k; vm_compute; reflexivity|discriminate]
  end.
Theorem C49_escaped_return_refuted :
  block_differs [str "x"] []
    (Some (SBlk 1 [] []
       [SSend false (SSend false (v_ "x") (str "<") [lit_ 1]) (str "ifTrue:") [SBlk 2 [] [] [] (Some (lit_ 3)) false];
        SSend false (v_ "self") (str "foo") []] None false)) 1
    (Toy [(CVar 1 (VArg 0), VObj 99); (CVar 1 (VArg 1), VInt 0)] []).
Proof. block_differs. Qed.
Print Assumptions C49_escaped_return_refuted.
(** [ x < 1 ifTrue: [ self bar: [ Unknown ] ] ]: the AST interpreter looks for Unknown in the
    wrong activation. *)
Theorem C49_unknown_global_refuted :
  block_differs [str "x"]
    [SSend false (SSend false (v_ "x") (str "<") [lit_ 1]) (str "ifTrue:")
       [SBlk 1 [] [] [SSend false (v_ "self") (str "bar:")
          [SBlk 2 [] [] [SSend false (v_ "Unknown") (str "foo") []] None false]] None false]] None 1
    (Toy [(CVar 1 (VArg 0), VObj 99); (CVar 1 (VArg 1), VInt 0)] []).
Proof. block_differs. Qed.
Print Assumptions C49_unknown_global_refuted.
(** Accepted by the bytecode compiler only: [ x ifTrue: [ Known ] ] with a global that is
    known, [ | a | x ifTrue: [ a := self ] ], [ x + [ self foo ] ], [ self := 3 ]. *)
Definition one_compiles (known : bool) (ls : list (text * nat)) (ss : list src) (ret : option src) : Prop :=
  let ce := Cenv ex_fields (fun _ => known) in
  (exists m, compile_method ce [str "x"] ls ss ret false = Ok m) /\
  exists e, compile_ast ce [str "x"] ls ss ret = Err e.
Ltac one_compiles := split; eexists; vm_compute; reflexivity.
Theorem C49_known_global_refuted :
  one_compiles true [] [SSend false (v_ "x") (str "ifTrue:") [SBlk 1 [] [] [v_ "Known"] None false]] None.
Proof. one_compiles. Qed.
Print Assumptions C49_known_global_refuted.
Theorem C49_assign_self_refuted :
  one_compiles false [(str "a", 1)]
    [SSend false (v_ "x") (str "ifTrue:") [SBlk 1 [] [] [SAsgn [str "a"] (v_ "self")] None false]] None.
Proof. one_compiles. Qed.
Print Assumptions C49_assign_self_refuted.
Theorem C49_plus_block_refuted :
  one_compiles false [] [SSend false (v_ "x") t_plus
    [SBlk 1 [] [] [SSend false (v_ "self") (str "foo") []] None false]] None.
Proof. one_compiles. Qed.
Print Assumptions C49_plus_block_refuted.
Theorem C49_self_assign_refuted : one_compiles false [] [SAsgn [t_self] (lit_ 3)] None.
Proof. one_compiles. Qed.
Print Assumptions C49_self_assign_refuted.

(** [ x ifNotNil: [:v | v ] ] and [ x ifTrue: [:v | ^ v ] ]: the block has a parameter, and both
    compilers stop with an assertion, although the method is a correct one (C43, C49). *)
Theorem C43_parameter_refuted :
  Forall (fun m => compile_method ex_env [str "x"] [] [] (Some m) false = Err AssertionError /\
                   compile_ast ex_env [str "x"] [] [] (Some m) = Err AssertionError)
    [SSend false (v_ "x") (str "ifNotNil:") [SBlk 1 [str "v"] [] [v_ "v"] None false];
     SSend false (v_ "x") (str "ifNotNil:") [SBlk 1 [str "v"] [] [] (Some (v_ "v")) false];
     SSend false (v_ "x") (str "ifTrue:") [SBlk 1 [str "v"] [] [SSend false (v_ "self") (str "foo") [v_ "v"]] None false]].
Proof. apply Forall_cons; [split; vm_compute; reflexivity|]. apply Forall_cons; [split; vm_compute; reflexivity|]. apply Forall_cons; [split; vm_compute; reflexivity|]. apply Forall_nil. Qed.
Print Assumptions C43_parameter_refuted.

(** A method the AST compiler recognises as trivial (literal, global, getter, setter) does what
    its body does (C48), with at most two arguments besides the receiver *)
Theorem C48_ast_methods_partial : forall S X (μ : amachine S X) body t na n s,
  triv_of body = Some t -> na <= 3 -> (forall k i e, body <> NFldW k i e) ->
  (forall i a k l, body = NSeq (NFldW 0 i (NRead (VArg a) k) :: l) -> k = 0) ->
  run_ast μ (ATriv t na) n s = run_ast μ (AMeth false body) n s.
Proof.
  intros S X μ body t na n s Ht Hn Hw Hk. apply Nat.leb_le in Hn.
  assert (Hg : forall (o : out S X value), bind o (fun v s => Retn v s) = answer false (lift o)) by (intros o; destruct o; reflexivity).
  assert (L : forall A B (o : out S X A) (f : A -> S -> out S X B), lift (bind o f) = bind (lift o) (fun a s => lift (f a s)))
    by (intros A B o f; destruct o; reflexivity).
  unfold run_ast at 1, exec_triv. rewrite Hn, Hg. clear Hn.
  destruct body; cbn [triv_of triv_write] in Ht; try discriminate; try (injection Ht as <-; reflexivity).
  - exfalso. eapply Hw. reflexivity.
  - destruct l as [|x [|y [|z l]]]; try (destruct x; discriminate); try discriminate.
    + destruct y; try discriminate. destruct k; [|discriminate].
      destruct x; try discriminate. cbn [triv_write] in Ht. destruct k; [|discriminate].
      destruct x; try discriminate. destruct v as [|a]; try discriminate. injection Ht as <-.
      rewrite (Hk _ _ _ _ eq_refl). unfold run_ast. cbn [exec]. f_equal. rewrite L.
      assert (B : forall A B C (o : out S (astop X) A) (f : A -> S -> out S (astop X) B) (g : B -> S -> out S (astop X) C),
        bind (bind o f) g = bind o (fun a s => bind (f a s) g)) by (intros A B C o f g; destruct o; reflexivity).
      rewrite B. destruct (lift (m_rd (a_mach μ) 0 (VArg a) s)); try reflexivity. cbn [bind]. rewrite L, B.
      reflexivity.
    + destruct y; try discriminate. destruct k; discriminate.
Qed.
Print Assumptions C48_ast_methods_partial.
(** [ ^ f := x ], recognised too, answers the receiver instead of x *)
Theorem C48_ast_setter_refuted : exists body t s, triv_of body = Some t /\
  (exists i e, body = NFldW 0 i e) /\
  run_ast (num_amachine 0 false) (ATriv t 2) 3 s <> run_ast (num_amachine 0 false) (AMeth false body) 3 s.
Proof.
  exists (NFldW 0 0 (NRead (VArg 1) 0)), (AFldW 0 1), (Toy [(CVar 0 (VArg 0), VObj 99); (CVar 0 (VArg 1), VInt 7)] []).
  split; [reflexivity|]. split; [eauto|]. vm_compute. discriminate.
Qed.
Print Assumptions C48_ast_setter_refuted.
(** With three or more arguments besides the receiver the recognised method is an
    AttributeError whatever it does *)
Theorem C48_ast_many_refuted : forall S X (μ : amachine S X) t na n s, 3 < na ->
  run_ast μ (ATriv t na) n s = Abrupt (a_exn μ AttributeError) s.
Proof.
  intros S X μ t na n s H. unfold run_ast, exec_triv.
  replace (na <=? 3) with false by (symmetry; apply Nat.leb_gt; exact H). reflexivity.
Qed.
Print Assumptions C48_ast_many_refuted.
Example C48_ast_nonvacuous :
  let body := NSeq [NFldW 0 0 (NRead (VArg 1) 0); NSelf 0] in
  let s := Toy [(CVar 0 (VArg 0), VObj 99); (CVar 0 (VArg 1), VInt 7)] [] in
  triv_of body = Some (AFldW 0 1) /\
  exists s', run_ast (num_amachine 0 false) (ATriv (AFldW 0 1) 2) 3 s = Retn (VObj 99) s' /\ s' <> s.
Proof. cbn zeta. split; [reflexivity|]. eexists. split; [vm_compute; reflexivity|]. vm_compute. discriminate. Qed.
