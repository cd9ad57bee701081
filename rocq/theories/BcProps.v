(** Properties of the bytecode compiler and the bytecode interpreter: C39, C41, C42, C43, C44, C46. *)
From Coq Require Import ZArith Bool String Ascii List Lia.
From Verif Require ParseProofs.
From Verif Require Import Base LexModel ParseModel BcModel BcInterp BcSpec BcTab BcCode BcSim BcEval BcMono BcAdapt BcScope
  BcEmit BcInl BcJump BcRep BcGen BcExpr BcMsg BcBlk BcMeth BcRun BcNest BcHeight BcVars BcLex.
Import ListNotations.
Open Scope nat_scope.
Open Scope list_scope.

(** * A machine and a method for the examples *)
(** Variables and fields in a table, a trace of sends; every send answers the number of
    sends so far, except that isSmall answers true after five sends. *)
Inductive cell := CVar (k : nat) (v : vref) | CFld (k i : nat).
Definition cell_eqb (a b : cell) : bool :=
  match a, b with
  | CVar k (VLoc d), CVar k' (VLoc d') => (k =? k') && (d =? d')
  | CVar k (VArg d), CVar k' (VArg d') => (k =? k') && (d =? d')
  | CFld k i, CFld k' i' => (k =? k') && (i =? i')
  | _, _ => false
  end.
Record toy := Toy { t_cells : list (cell * value); t_trace : list (text * list value) }.
Definition toy_get (c : cell) (s : toy) : value :=
  match find (fun p => cell_eqb c (fst p)) (t_cells s) with Some (_, v) => v | None => VNil end.
Definition toy_set (c : cell) (v : value) (s : toy) : toy := Toy ((c, v) :: t_cells s) (t_trace s).
Definition toy_send (t : text) (l : list value) (s : toy) : out toy unit value :=
  Done (if text_eqb t (str "isSmall") && (5 <=? length (t_trace s)) then VTrue
        else VInt (Z.of_nat (length (t_trace s)))) (Toy (t_cells s) ((t, l) :: t_trace s)).
Definition toy_inc (d : Z) (v : value) (s : toy) : out toy unit value :=
  match v with VInt z => Done (VInt (z + d)) s | _ => Abrupt tt s end.
Definition toy_machine : machine toy unit := {|
  m_send := toy_send;
  m_super := fun t l => toy_send (str "super " ++ t)%list l;
  m_glob := fun t => toy_send t [];
  m_blk := fun l s => Done (VObj l) s;
  m_rd := fun k v s => Done (toy_get (CVar k v) s) s;
  m_wr := fun k v x s => Done tt (toy_set (CVar k v) x s);
  m_getf := fun k i s => Done (toy_get (CFld k i) s) s;
  m_setf := fun k i v s => Done tt (toy_set (CFld k i) v s);
  m_incf := fun k i s => bind (toy_inc 1 (toy_get (CFld k i) s) s)
                           (fun v s => Done v (toy_set (CFld k i) v s));
  m_inc := toy_inc 1;
  m_dec := toy_inc (-1);
  m_nlr := fun _ _ s => Abrupt tt s |}.
Lemma toy_lawful : lawful toy_machine.
Proof. intros k i s. cbn. destruct (toy_inc _ _ _); reflexivity. Qed.
Lemma toy_well_behaved : well_behaved toy_machine.
Proof. split; intros; cbn; try discriminate; unfold toy_inc; try (destruct v; discriminate); destruct (toy_get _ _); discriminate. Qed.
Definition toy0 : toy := Toy [(CVar 0 (VArg 0), VObj 99); (CVar 0 (VArg 1), VInt 5); (CFld 0 0, VInt 40)] [].

(** The method
      foo: x = ( | a |
        a := f := f + 1.
        x > a ifTrue: [ | b | b := a. self bar: [ b := b + x. ^ b ] ].
        [ x isSmall ] whileFalse: [ x := x - 1 ].
        x foo ifTrue: [ ^ 3 ].
        ^ a )   *)
Definition ex_fields : list text := [str "f"; str "g"].
Definition ex_env : cenv := {| ce_fields := ex_fields; ce_known := fun _ => false |}.
Definition v_ (n : string) : src := SVar (str n).
Definition ex_inner : src :=
  SBlk 12 [] [] [SAsgn [str "b"] (SSend false (v_ "b") (str "+") [v_ "x"])] (Some (v_ "b")) true.
Definition ex_body : list src :=
  [SAsgn [str "a"; str "f"] (SInc (v_ "f"));
   SSend false (SSend false (v_ "x") (str ">") [v_ "a"]) (str "ifTrue:")
     [SBlk 11 [] [(str "b", 2)]
        [SAsgn [str "b"] (v_ "a"); SSend false (v_ "self") (str "bar:") [ex_inner]] None false];
   SSend false (SBlk 13 [] [] [SSend false (v_ "x") (str "isSmall") []] None false) (str "whileFalse:")
     [SBlk 14 [] [] [SAsgn [str "x"] (SDec (v_ "x"))] None true];
   SAsgn [str "f"] (SInc (v_ "f"))].
Definition ex_ret : option src := Some (v_ "a").
Definition ex_locals : list (text * nat) := [(str "a", 1)].
Definition ex_compiled (p : bool) : res meth := compile_with ex_env p [str "x"] ex_locals ex_body ex_ret true.
Definition ex_meth (p : bool) : meth :=
  match ex_compiled p with Ok m => m | Err _ => Meth 0 [] [] [] 0 [] 0%Z None end.
Definition is_ok {A} (r : res A) : bool := match r with Ok _ => true | Err _ => false end.

Ltac vc := vm_compute; reflexivity.
Example ex_meets_hypotheses : forallb ok_src ex_body = true /\ ok_ret ex_ret = true /\
  in_layer t_self ex_locals = None /\
  ex_compiled true = Ok (ex_meth true) /\ ex_compiled false = Ok (ex_meth false) /\
  length (inside (ex_meth true) []) = 1 /\ me_bytes (ex_meth true) <> me_bytes (ex_meth false).
Proof.
  split; [vc|]. split; [vc|]. split; [vc|]. split; [vc|]. split; [vc|]. split; [vc|]. vm_compute. discriminate.
Qed.

(** * C39: names *)
(** A name is resolved to the variable of the innermost activation that declares it (within
    an activation a local hides a parameter). *)
Theorem C39_innermost n rho k v : resolve n rho = Some (k, v) <-> innermost n rho k v.
Proof. apply resolve_some. Qed.
Print Assumptions C39_innermost.
Theorem C39_undeclared n rho : resolve n rho = None <-> undeclared n rho.
Proof. apply resolve_none. Qed.
Print Assumptions C39_undeclared.
(** Reading a name anywhere in a method or a block in it, any number of blocks deep: the
    instruction that is emitted reads the variable of the innermost declaration if there is
    one, else the field of that name, else the global of that name. *)
Theorem C39_read : forall S X (μ : machine S X) ce n rho scs g g' scs' cap more post st s,
  contexts_of scs rho -> gen_push_variable ce n (g, scs) = Ok (g', scs') -> length st < cap ->
  let instr := step μ cap (tables_of scs') (g_lits g' ++ more) (g_bytes g' ++ post) (length (g_bytes g)) st s in
  let next := length (g_bytes g') in
  (forall k v, innermost n rho k v ->
     instr = bind (m_rd μ k v s) (fun x s => Done (next, x :: st) s)) /\
  (undeclared n rho -> forall i, position n (ce_fields ce) = Some i ->
     instr = bind (m_getf μ (depth rho) i s) (fun x s => Done (next, x :: st) s)) /\
  (undeclared n rho -> position n (ce_fields ce) = None ->
     n <> t_nil -> n <> t_true -> n <> t_false ->
     instr = bind (m_glob μ n s) (fun x s => Done (next, x :: st) s)).
Proof.
  intros S X μ ce n rho scs g g' scs' cap more post st s Hc H Hl instr next.
  pose proof (read_step ce μ n rho scs g g' scs' cap more post st s Hc H Hl) as E. fold instr next in E. unfold read_var in E.
  split; [|split].
  - intros k v Hi. apply resolve_some in Hi. rewrite Hi in E. exact E.
  - intros Hu i Hi. apply resolve_none in Hu. rewrite Hu, Hi in E. exact E.
  - intros Hu Hi N1 N2 N3. apply resolve_none in Hu. rewrite Hu, Hi in E.
    apply ParseProofs.text_eqb_neq in N1, N2, N3. rewrite N1, N2, N3 in E. exact E.
Qed.
Print Assumptions C39_read.
(** Writing agrees with reading: the instruction writes the variable, or field, that
    reading the name at the same place reads. *)
Theorem C39_write_partial : forall S X (μ : machine S X) ce n rho scs g g' scs' cap more post v st s,
  contexts_of scs rho -> (peep_off g = true \/ lastb 0 g <> B_dup) ->
  gen_pop_variable ce n (g, scs) = Ok (g', scs') -> length st < cap ->
  let instr := step μ cap (tables_of scs') (g_lits g' ++ more) (g_bytes g' ++ post) (length (g_bytes g)) (v :: st) s in
  let next := length (g_bytes g') in
  (forall k x, innermost n rho k x ->
     instr = bind (m_wr μ k x v s) (fun _ s => Done (next, st) s)) /\
  (undeclared n rho -> forall i, position n (ce_fields ce) = Some i ->
     instr = bind (m_setf μ (depth rho) i v s) (fun _ s => Done (next, st) s)).
Proof.
  intros S X μ ce n rho scs g g' scs' cap more post v st s Hc Hp H Hl instr next.
  pose proof (write_step ce μ n rho scs g g' scs' cap more post v st s Hc Hp H Hl) as E. fold instr next in E. unfold write_var in E.
  split.
  - intros k x Hi. apply resolve_some in Hi. rewrite Hi in E. exact E.
  - intros Hu i Hi. apply resolve_none in Hu. rewrite Hu, Hi in E. exact E.
Qed.
Print Assumptions C39_write_partial.
(** There is nothing to write under any other name: the compiler rejects it; reading never
    fails to compile. *)
Theorem C39_write_unknown : forall ce n rho scs g, contexts_of scs rho -> undeclared n rho ->
  position n (ce_fields ce) = None -> gen_pop_variable ce n (g, scs) = Err ValueError.
Proof.
  intros ce n rho scs g Hc Hu Hp. unfold gen_pop_variable. destruct (find_var n scs) as [r scs'] eqn:E.
  destruct (find_var_spec n scs rho Hc _ _ E) as (E1 & _). apply resolve_none in Hu. rewrite Hu in E1.
  destruct r; [discriminate|]. rewrite find_text_position, Hp. reflexivity.
Qed.
Print Assumptions C39_write_unknown.
Theorem C39_read_total : forall ce n scs g, exists c, gen_push_variable ce n (g, scs) = Ok c.
Proof.
  intros ce n scs g. unfold gen_push_variable. destruct (find_var n scs) as [[[k f]|] scs']; [eauto|].
  destruct (find_text n (ce_fields ce)); [|eauto]. destruct (add_literal_if_absent (LS n) g). eauto.
Qed.
Print Assumptions C39_read_total.
(** A block with a parameter x and a local a, in a method with a parameter x, a local a
    and one called b. *)
Definition ex_sc (args : list text) (ls : list (text * nat)) : scope :=
  {| sc_args := args; sc_locals := map (fun x => (Plain (fst x), snd x)) ls; sc_acc := false; sc_thr := false;
     sc_catch := false; sc_out := [] |}.
Example C39_nonvacuous :
  let rho := [Level [[(str "a", 7)]] [t_block_self; str "x"]; Level [[(str "a", 3); (str "b", 4)]] [t_self; str "x"]] in
  contexts_of [ex_sc [t_block_self; str "x"] [(str "a", 7)];
               ex_sc [t_self; str "x"] [(str "a", 3); (str "b", 4)]] rho /\
  innermost (str "x") rho 0 (VArg 1) /\ innermost (str "a") rho 0 (VLoc 7) /\
  innermost (str "b") rho 1 (VLoc 4) /\ innermost t_self rho 1 (VArg 0) /\
  undeclared (str "f") rho /\ position (str "f") ex_fields = Some 0 /\
  undeclared (str "Array") rho /\ position (str "Array") ex_fields = None.
Proof.
  intros rho. split.
  { repeat constructor; (do 2 eexists; split; [reflexivity|]; split; [symmetry; apply app_nil_r|constructor]). }
  rewrite <- !resolve_some, <- !resolve_none. repeat split.
Qed.

(** * C41: the operand stack *)
(** In every method the compiler produces, and every block method inside it, whatever the
    machine does: an instruction is always reached with the same number of operands, from
    wherever it is reached, and never with more than the size computed for the method. *)
Theorem C41_heights_partial : forall ce ps ls ss ret period m outer m',
  forallb ok_src ss = true -> ok_ret ret = true -> in_layer t_self ls = None ->
  compile_method ce ps ls ss ret period = Ok m ->
  In (outer, m') (([], m) :: inside m []) ->
  (forall S1 X1 (μ1 : machine S1 X1) s1 S2 X2 (μ2 : machine S2 X2) s2 pc st1 st2 s1' s2',
     visits μ1 outer m' s1 pc st1 s1' -> visits μ2 outer m' s2 pc st2 s2' -> length st1 = length st2) /\
  (forall S X (μ : machine S X) s0 pc st s, visits μ outer m' s0 pc st s -> length st <= Z.to_nat (me_max m')).
Proof.
  intros ce ps ls ss ret period m outer m' H1 H2 H3 H4 Hi.
  destruct (coded_heights ce outer m' (all_coded ce true ps ls ss ret period m H1 H2 H3 H4 outer m' Hi)) as (H & F & B & V).
  split.
  - intros. eapply F; eauto.
  - intros. eapply B, V; eauto.
Qed.
Print Assumptions C41_heights_partial.
(** And so the interpreter never pops from an empty stack, pushes onto a full one, meets
    a number that is no bytecode, an operand that is missing or a literal of the wrong
    kind, or runs past the end. *)
Theorem C41_never_stuck_partial : forall S X (μ : machine S X) ce ps ls ss ret period m outer m' k s,
  forallb ok_src ss = true -> ok_ret ret = true -> in_layer t_self ls = None ->
  compile_method ce ps ls ss ret period = Ok m ->
  In (outer, m') (([], m) :: inside m []) ->
  lawful μ -> well_behaved μ -> run_method μ outer m' k s <> Stuck.
Proof.
  intros S X μ ce ps ls ss ret period m outer m' k s H1 H2 H3 H4 Hi L W.
  apply (coded_safe ce); auto. eapply all_coded; eauto.
Qed.
Print Assumptions C41_never_stuck_partial.
Example C41_nonvacuous : lawful toy_machine /\ well_behaved toy_machine /\
  compile_method ex_env [str "x"] ex_locals ex_body ex_ret true = Ok (ex_meth true) /\
  (exists outer m, In (outer, m) (inside (ex_meth true) []) /\ 2 <= Z.to_nat (me_max m)) /\
  exists st s, visits toy_machine [] (ex_meth true) toy0 4 st s /\ length st = 3.
Proof.
  split; [apply toy_lawful|]. split; [apply toy_well_behaved|]. split; [vc|]. split.
  - destruct (inside (ex_meth true) []) as [|[o m] r] eqn:E; [vm_compute in E; discriminate|].
    exists o, m. split; [left; reflexivity|]. apply (f_equal (map (fun p => 2 <=? Z.to_nat (me_max (snd p))))) in E.
    vm_compute in E. injection E as E _. cbn [snd] in E. apply Nat.leb_le. symmetry. exact E.
  - exists [VInt 41; VInt 41; VInt 41], toy0. split; [|reflexivity].
    apply (at_next _ _ _ _ 3 [VInt 41; VInt 41] toy0); [|vc].
    apply (at_next _ _ _ _ 2 [VInt 41] toy0); [|vc].
    apply (at_next _ _ _ _ 1 [VInt 40] toy0); [|vc].
    apply (at_next _ _ _ _ 0 [] toy0); [apply at_start|vc].
Qed.

(** * C42: jumps *)
(** A forward jump of any kind, however far: written with a dummy offset, followed by any
    bytes [body] and patched there, it leaves all other bytes as they are and goes, if
    taken, to the end of these bytes, else to the instruction after it; the offset fits
    into the two bytes.  A distance over 65535 is a compile-time error. *)
Theorem C42_forward : forall b k wide eff g idx g1 body g2,
  jump_form b = Some (k, wide) -> k <> JBack ->
  emit_dummy b eff g = (idx, g1) -> g_bytes g2 = g_bytes g1 ++ body ->
  let here := length (g_bytes g) in
  if 3 + length body <=? 65535
  then exists g3 x y z, patch_jump idx g2 = Ok g3 /\
         g_bytes g3 = g_bytes g ++ [x; y; z] ++ body /\ y <= 255 /\ z <= 255 /\
         forall S X (μ : machine S X) cap chain lits post st s,
           step μ cap chain lits (g_bytes g3 ++ post) here st s =
           jump_to k (length (g_bytes g3)) (here + 3) st s
  else patch_jump idx g2 = Err PyException.
Proof.
  intros b k wide eff g idx g1 body g2 Hb Hk Hd H2 here. unfold emit_dummy in Hd.
  assert (E1 : idx = S here) by (apply (f_equal fst) in Hd; cbn in Hd; subst idx; unfold here; rewrite ?app_length; cbn; lia). assert (E2 : g_bytes g1 = g_bytes g ++ [num b; 0; 0]).
  { replace g1 with (emit3 b 0 0 eff g) by (apply (f_equal snd) in Hd; exact Hd). cbn. rewrite <- !app_assoc. reflexivity. }
  clear Hd. rewrite E2, <- app_assoc in H2.
  pose proof (patch_result b k wide (g_bytes g) body g2 Hb Hk H2) as P. rewrite E1. unfold here.
  destruct (3 + length body <=? 65535).
  - destruct P as (b' & w' & x & y & P1 & P2 & P3 & P4 & P5).
    exists (with_bytes (g_bytes g ++ [num b'; x; y] ++ body) g2), (num b'), x, y.
    split; [exact P1|]. split; [reflexivity|]. split; [exact P3|]. split; [exact P4|].
    intros S X μ cap chain lits post st s. cbn [with_bytes g_bytes]. rewrite <- !app_assoc.
    rewrite (step_offset μ cap chain lits (g_bytes g) b' k w' x y (body ++ post) st s P2), <- P5.
    rewrite app_length. change (length ([num b'; x; y] ++ body)) with (3 + length body).
    unfold jump_sem, jump_to, pop. destruct k; try reflexivity; try congruence; destruct st; reflexivity.
  - exact P.
Qed.
Print Assumptions C42_forward.
(** A backward jump goes to the given address. *)
Theorem C42_backward : forall begin g, begin <= length (g_bytes g) ->
  let here := length (g_bytes g) in
  if here - begin <=? 65535
  then exists g' x y z, emit_backwards_jump begin g = Ok g' /\
         g_bytes g' = g_bytes g ++ [x; y; z] /\ y <= 255 /\ z <= 255 /\
         forall S X (μ : machine S X) cap chain lits post st s,
           step μ cap chain lits (g_bytes g' ++ post) here st s = Done (begin, st) s
  else emit_backwards_jump begin g = Err PyException.
Proof.
  intros begin g Hl here. pose proof (back_result begin g Hl) as P. fold here in P.
  destruct (here - begin <=? 65535); [|exact P]. destruct P as (b & w & x & y & P1 & P2 & P3 & P4 & P5).
  exists (with_loops (g_loops g ++ [(begin, here)]) (emit3 b x y 0 g)), (num b), x, y.
  assert (E : g_bytes (with_loops (g_loops g ++ [(begin, here)]) (emit3 b x y 0 g)) = g_bytes g ++ [num b; x; y]).
  { cbn. rewrite <- !app_assoc. reflexivity. }
  split; [exact P1|]. split; [exact E|]. split; [exact P3|]. split; [exact P4|].
  intros S X μ cap chain lits post st s. rewrite E, <- app_assoc. unfold here in *.
  rewrite (step_offset μ cap chain lits (g_bytes g) b JBack w x y post st s P2), <- P5.
  unfold jump_sem. replace (_ <=? _) with true by (symmetry; apply Nat.leb_le; lia).
  replace (length (g_bytes g) - (length (g_bytes g) - begin)) with begin by lia. reflexivity.
Qed.
Print Assumptions C42_backward.
(** A jump over 300 bytes takes two bytes for the distance. *)
Example C42_nonvacuous :
  let '(idx, g1) := emit_dummy B_jump_on_false_top_nil (-1) mg0 in
  match patch_jump idx (with_bytes (g_bytes g1 ++ repeat (num B_dup) 300) g1) with
  | Ok g3 => firstn 3 (g_bytes g3) = [num B_jump2_on_false_top_nil; 47; 1] /\
             step toy_machine 1 [] [] (g_bytes g3) 0 [VFalse] toy0 = Done (303, [VNil]) toy0 /\
             step toy_machine 1 [] [] (g_bytes g3) 0 [VTrue] toy0 = Done (3, []) toy0
  | Err _ => False
  end.
Proof. vm_compute. auto. Qed.

Lemma Forall2_mono {A B} (R Q : A -> B -> Prop) l l' : (forall a b, R a b -> Q a b) -> Forall2 R l l' -> Forall2 Q l l'.
Proof. intros H. induction 1; auto. Qed.
(** * C43: compiled code computes what the source means *)
(** For every machine and start state, running the bytecode of a method has the outcome of
    evaluating its statements: the same result, exception and final state if one of the two
    ends, and otherwise none of them ends. *)
Theorem C43_method_partial : forall S X (μ : machine S X) ce ps ls ss ret period m,
  forallb ok_src ss = true -> ok_ret ret = true -> in_layer t_self ls = None ->
  compile_method ce ps ls ss ret period = Ok m -> lawful μ ->
  forall s, same_outcome (eval_method (ce_fields ce) ss ret μ [Level [ls] (t_self :: ps)]) (run_method μ [] m) s.
Proof. intros S X μ ce ps ls ss ret period m H1 H2 H3 H4 Hμ s. eapply compiled; eauto. Qed.
Print Assumptions C43_method_partial.
(** And the method of every block literal in it, at any depth, has the outcome of
    evaluating the statements of the block; the methods are those of the block literals of
    the source, in their order. *)
Theorem C43_blocks_partial : forall S X (μ : machine S X) ce ps ls ss ret period m,
  forallb ok_src ss = true -> ok_ret ret = true -> in_layer t_self ls = None ->
  compile_method ce ps ls ss ret period = Ok m -> lawful μ ->
  Forall2 (fun (compiled : list (list nat) * meth) (source : src * env) =>
             label_is (snd compiled) (fst source) /\
             forall s, same_outcome (eval_closure (ce_fields ce) (fst source) (snd source) μ)
                                    (run_method μ (fst compiled) (snd compiled)) s)
    (inside m []) (body_blocks ss ret [Level [ls] (t_self :: ps)]).
Proof.
  intros S X μ ce ps ls ss ret period m H1 H2 H3 H4 Hμ.
  eapply Forall2_mono; [|eapply compiled_inside; eauto].
  intros [o m'] [b rho] (C & A & E & Hi). cbn [fst snd] in *. rewrite E. eapply impl_runs; eauto.
Qed.
Print Assumptions C43_blocks_partial.
Example C43_nonvacuous :
  compile_method ex_env [str "x"] ex_locals ex_body ex_ret true = Ok (ex_meth true) /\ lawful toy_machine /\
  run_method toy_machine [] (ex_meth true) 100 toy0 =
    eval_method ex_fields ex_body ex_ret toy_machine [Level [ex_locals] [t_self; str "x"]] 100 toy0 /\
  match run_method toy_machine [] (ex_meth true) 100 toy0 with
  | Retn v s => v = VInt 41 /\ toy_get (CFld 0 0) s = VInt 42 /\ toy_get (CVar 0 (VArg 1)) s = VInt 2 /\
                length (t_trace s) = 6
  | _ => False
  end.
Proof. split; [vc|]. split; [apply toy_lawful|]. split; [vc|]. vm_compute. auto. Qed.
(** The hypotheses that are not about the shape of the tree cannot be dropped.  With a local
    called self, [^ self] answers the receiver. *)
Definition self_local : list (text * nat) := [(t_self, 1)].
Definition self_meth : meth :=
  match compile_method ex_env [] self_local [] (Some (SVar t_self)) false with Ok m => m | Err _ => ex_meth true end.
Theorem C43_local_self_refuted :
  exists m, compile_method ex_env [] self_local [] (Some (SVar t_self)) false = Ok m /\
  ~ same_outcome (eval_method ex_fields [] (Some (SVar t_self)) toy_machine [Level [self_local] [t_self]])
      (run_method toy_machine [] m) toy0.
Proof.
  exists self_meth. split; [vc|]. intros [H _]. destruct (H 5) as [K HK]; [vm_compute; discriminate|].
  specialize (HK (S (S K)) ltac:(lia)). unfold run_method in HK. cbn [run] in HK.
  vm_compute in HK. discriminate.
Qed.
Print Assumptions C43_local_self_refuted.
(** A literal array that has the symbol #ArraySizeLiteralPlaceholder in it gets an integer
    in its place. *)
Definition holder_src : src := SLit (SA [SL (LS placeholder)]).
Definition holder_meth : meth :=
  match compile_method ex_env [] [] [] (Some holder_src) false with Ok m => m | Err _ => ex_meth true end.
Theorem C43_placeholder_refuted :
  exists m, compile_method ex_env [] [] [] (Some holder_src) false = Ok m /\
  ~ same_outcome (eval_method ex_fields [] (Some holder_src) toy_machine [Level [[]] [t_self]])
      (run_method toy_machine [] m) toy0.
Proof.
  exists holder_meth. split; [vc|]. intros [H _]. destruct (H 5) as [K HK]; [vm_compute; discriminate|].
  specialize (HK (20 + K) ltac:(lia)). vm_compute in HK. discriminate.
Qed.
Print Assumptions C43_placeholder_refuted.

(** * C44: the peephole rules *)
Lemma same_trans {S X A} (f g h : nat -> S -> out S X A) s : same_outcome f g s -> same_outcome f h s -> same_outcome g h s.
Proof.
  assert (T : forall g h : nat -> S -> out S X A, same_outcome f g s -> same_outcome f h s ->
    forall k, g k s <> Hang -> settles h s (g k s)).
  { intros g' h' [_ G] [H _] k Hk. destruct (G k Hk) as [K E]. specialize (E K (le_n _)).
    rewrite <- E. apply H. rewrite E. exact Hk. }
  intros Hg Hh. split; eauto.
Qed.
Lemma Forall2_both {A B C} (R : A -> C -> Prop) (Q : B -> C -> Prop) l l' lc : Forall2 R l lc -> Forall2 Q l' lc ->
  Forall2 (fun a b => exists c, R a c /\ Q b c) l l'.
Proof.
  intros H. revert l'. induction H as [|a c l lc Ha _ IH]; intros l' H'; inversion H'; subst; constructor; eauto.
Qed.
(** Compiled with and without them, a method has the same outcome from every state of every
    machine, and so has every block method in it. *)
Theorem C44_peephole_partial : forall S X (μ : machine S X) ce ps ls ss ret period m plain,
  forallb ok_src ss = true -> ok_ret ret = true -> in_layer t_self ls = None ->
  compile_method ce ps ls ss ret period = Ok m -> compile_plain ce ps ls ss ret period = Ok plain -> lawful μ ->
  (forall s, same_outcome (run_method μ [] plain) (run_method μ [] m) s) /\
  Forall2 (fun a b : list (list nat) * meth => me_label (snd a) = me_label (snd b) /\
             forall s, same_outcome (run_method μ (fst a) (snd a)) (run_method μ (fst b) (snd b)) s)
    (inside plain []) (inside m []).
Proof.
  intros S X μ ce ps ls ss ret period m plain H1 H2 H3 H4 H5 Hμ. split.
  - intros s. eapply same_trans; eapply compiled; eauto.
  - assert (P : forall p m, compile_with ce p ps ls ss ret period = Ok m ->
      Forall2 (fun (compiled : list (list nat) * meth) (source : src * env) =>
             label_is (snd compiled) (fst source) /\
             forall s, same_outcome (eval_closure (ce_fields ce) (fst source) (snd source) μ)
                                    (run_method μ (fst compiled) (snd compiled)) s)
        (inside m []) (body_blocks ss ret [Level [ls] (t_self :: ps)])).
    { intros p m0 E. eapply Forall2_mono; [|eapply compiled_inside; eauto].
      intros [o m'] [b rho] (C & A & E' & Hi). cbn [fst snd] in *. rewrite E'. eapply impl_runs; eauto. }
    eapply Forall2_mono; [|exact (Forall2_both _ _ _ _ _ (P false _ H5) (P true _ H4))].
    intros a b ([x rho] & [A1 A2] & [B1 B2]). cbn [fst snd] in *. split.
    + destruct x; cbn in A1, B1; try contradiction. congruence.
    + intros s. eapply same_trans; [apply A2|apply B2].
Qed.
Print Assumptions C44_peephole_partial.
Example C44_nonvacuous :
  compile_method ex_env [str "x"] ex_locals ex_body ex_ret true = Ok (ex_meth true) /\
  compile_plain ex_env [str "x"] ex_locals ex_body ex_ret true = Ok (ex_meth false) /\
  length (me_bytes (ex_meth true)) < length (me_bytes (ex_meth false)) /\
  existsb (Nat.eqb (num B_inc_field)) (me_bytes (ex_meth true)) = true /\
  existsb (Nat.eqb (num B_inc_field)) (me_bytes (ex_meth false)) = false /\
  run_method toy_machine [] (ex_meth true) 100 toy0 = run_method toy_machine [] (ex_meth false) 100 toy0.
Proof. split; [vc|]. split; [vc|]. split; [apply Nat.ltb_lt; vc|]. split; [vc|]. split; vc. Qed.

(** * C46: variables and inlining *)
(** A name in a block, at any depth inside inlined and other blocks, resolved among the
    activations that are left after inlining is the variable it is in the source, where
    every block has its own scope; the activation it belongs to is that of the same method
    or block, or of the one into which this was inlined. *)
Theorem C46_denotes : forall n L, n <> t_block_self -> lex_ok L ->
  resolve n (activations L) =
  option_map (fun p => (activation_of (fst p) L, snd p)) (resolve n (map snd L)).
Proof.
  intros n L Hn. apply lex_resolve. unfold name_ok. rewrite (ParseProofs.text_eqb_neq _ _ Hn). reflexivity.
Qed.
Print Assumptions C46_denotes.
(** Every block method inside a compiled method, also those that were compiled for a block
    that has been inlined since, runs as its source among these activations: its reads and
    writes are those of the variables that the names denote in the source. *)
Theorem C46_compiled_partial : forall S X (μ : machine S X) ce ps ls ss ret period m,
  forallb ok_src ss = true -> ok_ret ret = true -> in_layer t_self ls = None ->
  compile_method ce ps ls ss ret period = Ok m -> lawful μ ->
  let L0 := [(true, Level [ls] (t_self :: ps))] in
  (forall s, same_outcome (eval_method (ce_fields ce) ss ret μ (activations L0)) (run_method μ [] m) s) /\
  Forall2 (fun (compiled : list (list nat) * meth) (source : src * lexenv) =>
             label_is (snd compiled) (fst source) /\ lex_ok (snd source) /\
             forall s, same_outcome (eval_closure (ce_fields ce) (fst source) (activations (snd source)) μ)
                                    (run_method μ (fst compiled) (snd compiled)) s)
    (inside m []) (lex_body ss ret L0).
Proof.
  intros S X μ ce ps ls ss ret period m H1 H2 H3 H4 Hμ L0. split; [intros s; eapply compiled; eauto|].
  pose proof (C43_blocks_partial S X μ ce ps ls ss ret period m H1 H2 H3 H4 Hμ) as H.
  change [Level [ls] (t_self :: ps)] with (activations L0) in H.
  rewrite lex_body_blocks in H by reflexivity.
  assert (Hok : Forall (fun p => lex_ok (snd p)) (lex_body ss ret L0)) by (apply lex_body_ok; reflexivity).
  revert Hok H. generalize (inside m []) (lex_body ss ret L0). intros l l'. revert l.
  induction l' as [|[b L] l' IH]; intros l Hok H; inversion H; subst; constructor.
  - cbn [fst snd act_pair] in *. inversion Hok; subst. destruct H7. auto.
  - inversion Hok; subst. auto.
Qed.
Print Assumptions C46_compiled_partial.
(** [self bar: [ b := b + x. ^ b ]] in an inlined block that declares b: b is found one
    activation out, in that of the method. *)
Example C46_nonvacuous :
  match lex_body ex_body ex_ret [(true, Level [ex_locals] [t_self; str "x"])] with
  | [(b, L)] => b = ex_inner /\ lex_ok L /\ length L = 2 /\ length (activations L) = 1 /\
      resolve (str "b") (Level [[]] [t_block_self] :: map snd L) = Some (1, VLoc 2) /\
      resolve (str "b") (Level [[]] [t_block_self] :: activations L) = Some (1, VLoc 2) /\
      resolve (str "x") (Level [[]] [t_block_self] :: map snd L) = Some (2, VArg 1) /\
      resolve (str "x") (Level [[]] [t_block_self] :: activations L) = Some (1, VArg 1)
  | _ => False
  end.
Proof. vm_compute. repeat split; auto. Qed.
