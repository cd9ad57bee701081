(** C49 for whole programs. *)
From Coq Require Import ZArith Bool String Ascii List Lia.
From Verif Require Import Base LexModel ParseModel NumModel BcModel BcInterp BcSpec BcTab VmModel VmSpec VmRel VmNlr VmCode VmBc VmProps VmBcProps
  AstModel AstSpec AstVm AstVmNlr AstVmCare AstVmBoth AstVmProps.
Import ListNotations.
Open Scope nat_scope.
Open Scope list_scope.

(** Of an AST and a bytecode program, what is not code: lookup of methods, primitives, prim_inc
    and prim_dec. *)
Definition same_vm (P Q : prog) : Prop :=
  p_find P = p_find Q /\ p_super P = p_super Q /\ p_dnu P = p_dnu Q /\ p_prim P = p_prim Q /\
  p_inc P = p_inc Q /\ p_dec P = p_dec Q.

(** C49.  Methods and blocks with the sources [D], compiled to nodes by the AST compiler and to
    bytecodes by the bytecode compiler: whatever is invoked on whatever arguments and state,
    the AST interpreter and the bytecode interpreter end alike (same value or same error, same
    objects and globals), or neither ends.  For all programs that variables are assigned one at a
    time in, and for runs in which nothing occurs that they are known to treat differently: the
    program as run with [care], which evaluates the sources, is not stuck for any number of
    steps.  The other restrictions on sources are those of [C49_ast_method_partial] and
    [C43_program_partial]. *)
Theorem C49_program_partial : forall D A P, ast_prog D A -> compiled_prog D P -> same_vm P (ap_vm A) -> number_messages P ->
  (forall mid d, D mid = Some d -> single_method (md_src d) = true) ->
  forall c args st, no_blocks st -> (forall n, care D P n c args (Vm st []) <> Stuck) ->
  same_outcome (fun n st => seen (acall A n c args (Vm st [])))
               (fun n st => seen (call P n c args (Vm st []))) st.
Proof.
  intros D A P HA HP HS HN H1 c args st Hst Hc.
  destruct (C47_compiled_partial D P HP c args st Hst) as [G1 G2].
  destruct A as [[f1 f2 f3 f4 f5 f6 f7 f8] bd ct ar]. destruct P as [g1 g2 g3 g4 g5 g6 g7 g8].
  destruct HS as (E1 & E2 & E3 & E4 & E5 & E6). cbn in E1, E2, E3, E4, E5, E6. subst g1 g2 g3 g4 g7 g8.
  set (A := AProg (Prog f1 f2 f3 f4 f5 f6 f7 f8) bd ct ar) in *. set (P := Prog f1 f2 f3 f4 g5 g6 f7 f8) in *.
  assert (B : same_outcome (fun n s => aspec (asources D A) n c args s) (fun n s => spec (from_source D P) n c args s) (Vm st [])).
  { refine (both_ways D A HN _ _ c args (Vm st []) Hc).
    - intros mid d E. split; [|eauto]. apply HP in E. tauto.
    - intros mid d E. apply HP in E. tauto. }
  assert (N : forall o : vout value, seen o <> Hang <-> o <> Hang) by (intros []; cbn; split; congruence).
  destruct B as [B1 B2]. split; intros n Hn.
  - rewrite (C47_ast_returns_partial D A HA) in * by auto. apply N in Hn. destruct (B1 n Hn) as [K HK].
    assert (Hk : seen (spec (from_source D P) K c args (Vm st [])) <> Hang) by (rewrite (HK K) by auto; apply N; auto).
    destruct (G1 K Hk) as [K2 HK2]. exists K2. intros k Hk2. rewrite (HK2 k Hk2), (HK K) by auto. reflexivity.
  - destruct (G2 n Hn) as [K HK].
    assert (Hk : spec (from_source D P) K c args (Vm st []) <> Hang) by (apply N; rewrite (HK K) by auto; exact Hn).
    destruct (B2 K Hk) as [K2 HK2]. exists K2. intros k Hk2. rewrite (C47_ast_returns_partial D A HA) by auto. rewrite (HK2 k Hk2), (HK K) by auto. reflexivity.
Qed.
Print Assumptions C49_program_partial.

(** * What [care] asks for is met *)
(** It is enough that it ends once with a value or an error. *)
Lemma careful_enough : forall D A P, compiled_prog D P -> same_vm P (ap_vm A) ->
  (forall mid d, D mid = Some d -> single_method (md_src d) = true) ->
  forall c args s n, care D P n c args s <> Hang -> care D P n c args s <> Stuck -> forall k, care D P k c args s <> Stuck.
Proof.
  intros D A P HP _ H1 c args s n Hn Hs k Hk. apply Hs. rewrite <- Hk.
  apply (care_settled D (AProg P (fun _ _ _ _ _ => Stuck) (fun _ => false) (fun _ _ => VNil))); auto; [|cbn [ap_vm]; congruence].
  intros mid d E. split; [|eauto]. apply HP in E. tauto.
Qed.
(** The number primitives of C01 to C09 are such that [number_messages] holds. *)
Lemma number_primitives : forall m P, p_inc P = prim_inc m -> p_dec P = prim_dec m ->
  (forall v st, small v = true -> exists p, p_find P t_plus v st = Some (CPrim p) /\
     p_prim P p [v; VInt 1] = match prim_add m v (VInt 1) with Ok w => ARet w | Err e => AErr e end) ->
  (forall v st, small v = true -> exists p, p_find P t_minus v st = Some (CPrim p) /\
     p_prim P p [v; VInt 1] = match prim_subtract m v (VInt 1) with Ok w => ARet w | Err e => AErr e end) ->
  number_messages P.
Proof.
  intros m P E1 E2 F1 F2.
  assert (I : forall v, small v = true -> prim_add m v (VInt 1) = prim_inc m v).
  { intros [] H; try discriminate; [reflexivity|]. cbn [prim_add prim_inc dbl_add dbl_inc get_float]. destruct m; reflexivity. }
  assert (J : forall v, small v = true -> prim_subtract m v (VInt 1) = prim_dec m v).
  { intros [] H; try discriminate; [reflexivity|]. cbn [prim_subtract prim_dec dbl_subtract dbl_dec get_float]. destruct m; reflexivity. }
  split; intros v st Hv.
  - destruct (F1 v st Hv) as (p & G1 & G2). exists p. rewrite E1, <- I by auto. auto.
  - destruct (F2 v st Hv) as (p & G1 & G2). exists p. rewrite E2, <- J by auto. auto.
Qed.

(** [find: k = ( | x | x := k - 1. self each: [ :i | i = x ifTrue: [ ^ i + 1 ] ]. ^ nil )]
    [each: b = ( b value: 2. b value: 3. ^ self )] *)
Definition m_find : msrc := Msrc [] [str "k"] [(str "x", 0)]
  [SAsgn [str "x"] (SDec (var "k"));
   msg (var "self") "each:" [SBlk 1 [str "i"] []
     [msg (msg (var "i") "=" [var "x"]) "ifTrue:" [blk 2 [] (Some (SInc (var "i")))]] None false]]
  (Some (var "nil")).
Definition m_each : msrc := Msrc [] [str "b"] []
  [msg (var "b") "value:" [num 2]; msg (var "b") "value:" [num 3]] (Some (var "self")).
Definition bo_methods (i : nat) : option msrc := nth_error [m_find; m_each] i.
Definition bo_defs (i : nat) : option mdef := option_map (fun m => Mdef m ex_cenv false) (bo_methods i).
Definition act_of (r : res value) : act := match r with Ok w => ARet w | Err e => AErr e end.
Definition bo_prim (p : nat) (args : list value) : act :=
  match p, args with
  | 0, b :: r => AEval b r ARet
  | 1, [v; w] => act_of (prim_add Translated v w)
  | 2, [v; w] => act_of (prim_subtract Translated v w)
  | 3, [v; w] => act_of (prim_equals Translated v w)
  | _, _ => AErr IndexError
  end.
Definition bo_find (sel : text) (r : value) (st : store) : option callee :=
  if text_eqb sel (str "find:") then Some (CMeth 0) else if text_eqb sel (str "each:") then Some (CMeth 1)
  else if text_eqb sel (str "value:") then Some (CPrim 0) else if text_eqb sel t_plus then Some (CPrim 1)
  else if text_eqb sel t_minus then Some (CPrim 2) else if text_eqb sel (str "=") then Some (CPrim 3) else None.
Definition bo_vm : prog :=
  Prog bo_find (fun _ _ _ => None) (fun _ args st => (args, st)) bo_prim (bc_body (code_at bo_defs))
       (fun mid => match bo_defs mid with Some d => catches d | None => false end) (prim_inc Translated) (prim_dec Translated).
Definition bo_ast : aprog := AProg bo_vm (ast_body (ast_code bo_defs)) (ast_catches (ast_code bo_defs)) (fun _ _ => VNil).
Lemma bo_method_ok m : m = m_find \/ m = m_each -> ok_method m.
Proof.
  intros [-> | ->]; (split; [vm_compute; reflexivity|split; [vm_compute; reflexivity|
    match goal with |- NoDup ?l => let l' := eval vm_compute in l in change l with l' end;
    repeat constructor; cbn [In]; intuition discriminate]]).
Qed.
Lemma bo_only mid d : bo_defs mid = Some d -> exists m, d = Mdef m ex_cenv false /\ (m = m_find \/ m = m_each).
Proof.
  unfold bo_defs, bo_methods. destruct mid as [|[|mid]]; cbn [nth_error option_map]; intros E.
  - exists m_find. split; [symmetry; injection E; exact (fun e => e)|auto].
  - exists m_each. split; [symmetry; injection E; exact (fun e => e)|auto].
  - destruct mid; discriminate.
Qed.
Lemma bo_honest : honest_prog bo_vm.
Proof.
  split; [|intros sel args st a m l o; cbn; tauto]. intros p args. cbn [bo_vm p_prim]. unfold bo_prim, act_of.
  destruct p as [|[|[|[|p]]]]; destruct args as [|a [|b [|c args]]]; try (repeat constructor; fail);
    match goal with |- context [match ?x with Ok _ => _ | Err _ => _ end] => destruct x; constructor end.
Qed.
Lemma bo_compiled_ok : compiled_prog bo_defs bo_vm.
Proof.
  split; [reflexivity|]. split; [exact bo_honest|]. intros mid d E. destruct (bo_only mid d E) as (m & -> & Hm). cbn [md_src md_env].
  split; [apply bo_method_ok; auto|]. split; [destruct Hm as [-> | ->]; reflexivity|]. split; [destruct Hm as [-> | ->]; reflexivity|]. split.
  - clear E. destruct Hm as [-> | ->];
      match goal with |- exists x, ?c = Ok x => let v := eval vm_compute in c in match v with Ok ?y => exists y; vm_compute; reflexivity end end.
  - cbn [bo_vm p_catch]. rewrite E. reflexivity.
Qed.
Lemma bo_ast_ok : ast_prog bo_defs bo_ast.
Proof.
  split; [reflexivity|]. split; [reflexivity|]. split; [exact bo_honest|]. intros mid d E. destruct (bo_only mid d E) as (m & -> & Hm). cbn [md_src md_env].
  split; [apply bo_method_ok; auto|]. clear E. destruct Hm as [-> | ->];
    (match goal with |- exists x, ?c = Ok x /\ _ => let v := eval vm_compute in c in match v with Ok ?y => exists y end end;
     split; [vm_compute; reflexivity|]; split; [vm_compute; reflexivity|]; split; [vm_compute; reflexivity|]; split; [vm_compute; reflexivity|];
     split; [left; vm_compute; repeat constructor|]; split; [vm_compute; reflexivity|];
     match goal with |- forall p, In p ?l -> _ => assert (Hb : forallb (fun p => length (block_params (fst p)) <=? 2) l = true) by (vm_compute; reflexivity);
       rewrite forallb_forall in Hb; intros p Hp; apply Nat.leb_le; exact (Hb p Hp) end).
Qed.
Lemma bo_numbers : number_messages bo_vm.
Proof.
  apply (number_primitives Translated); [reflexivity|reflexivity| |]; intros v st _; [exists 1|exists 2];
    (split; [reflexivity|]); cbn [bo_vm p_prim bo_prim]; reflexivity.
Qed.
Lemma bo_single mid d : bo_defs mid = Some d -> single_method (md_src d) = true.
Proof. intros E. destruct (bo_only mid d E) as (m & -> & [-> | ->]); reflexivity. Qed.
(** All hypotheses hold of this program, and [find: 4] answers 4 in both interpreters by a
    return out of a block out of each:, while [find: nil] is not for the theorem. *)
Example C49_program_nonvacuous :
  ast_prog bo_defs bo_ast /\ compiled_prog bo_defs bo_vm /\ same_vm bo_vm (ap_vm bo_ast) /\ number_messages bo_vm /\
  (forall mid d, bo_defs mid = Some d -> single_method (md_src d) = true) /\ no_blocks ex_store /\
  (forall n, care bo_defs bo_vm n (CMeth 0) [VObj 0; VInt 4] (Vm ex_store []) <> Stuck) /\
  seen (acall bo_ast 40 (CMeth 0) [VObj 0; VInt 4] (Vm ex_store [])) = Done (VInt 4) (Store [OInst 0 []; OBlk 0 1 0] [] []) /\
  seen (call bo_vm 90 (CMeth 0) [VObj 0; VInt 4] (Vm ex_store [])) = Done (VInt 4) (Store [OInst 0 []; OBlk 0 1 0] [] []) /\
  care bo_defs bo_vm 40 (CMeth 0) [VObj 0; VNil] (Vm ex_store []) = Stuck.
Proof.
  split; [exact bo_ast_ok|]. split; [exact bo_compiled_ok|]. split; [repeat split|]. split; [exact bo_numbers|]. split; [exact bo_single|].
  split; [intros [|[|a]] m l o; cbn; discriminate|]. split.
  - apply (careful_enough bo_defs bo_ast bo_vm bo_compiled_ok) with (n := 40); [repeat split|exact bo_single| |]; vm_compute; discriminate.
  - split; [vm_compute; reflexivity|]. split; vm_compute; reflexivity.
Qed.
