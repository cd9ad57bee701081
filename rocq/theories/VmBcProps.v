(** Whole programs of compiled methods. *)
From Coq Require Import ZArith Bool String Ascii List Lia.
From Verif Require Import Base LexModel ParseModel BcModel BcInterp BcSpec BcTab VmModel VmSpec VmCode VmBc VmProps.
Import ListNotations.
Open Scope nat_scope.
Open Scope list_scope.

(** C43.  A program whose methods and blocks run as bytecodes has the outcome of the program
    whose methods and blocks are evaluated from their sources: for all programs, invocations,
    arguments and states, however deep the calls and however long the loops.  Restrictions on
    sources as for [C43_method_partial]. *)
Theorem C43_program_partial : forall D P, compiled_prog D P -> forall c args s,
  same_outcome (fun n s => call (from_source D P) n c args s) (fun n s => call P n c args s) s.
Proof. exact compiled_calls. Qed.
Print Assumptions C43_program_partial.

(** C47.  The compiler marks as catching returns each method in which a block, at any depth
    and inlined or not, ends with [^]. *)
Theorem C47_marked : forall d m, code_of d = Ok m ->
  returns_from_blocks (md_src d) = true -> catches d = true.
Proof. exact catches_all. Qed.
Print Assumptions C47_marked.
(** With these marks, returns out of blocks of a compiled program behave as the stack of
    running activations prescribes. *)
Theorem C47_compiled_partial : forall D P, compiled_prog D P -> forall c args st, no_blocks st ->
  same_outcome (fun n st => seen (spec (from_source D P) n c args (Vm st [])))
               (fun n st => seen (call P n c args (Vm st []))) st.
Proof.
  intros D P HP c args st Hst. pose proof (compiled_calls D P HP c args (Vm st [])) as [H1 H2].
  assert (N : forall o : vout value, seen o <> Hang <-> o <> Hang) by (intros []; cbn; split; congruence).
  split; intros n Hn.
  - rewrite <- (C47_returns_partial _ _ (from_source_ok D P HP)) in * by auto. apply N in Hn.
    destruct (H1 n Hn) as [K HK]. exists K. intros k Hk. rewrite (HK k Hk). reflexivity.
  - apply N in Hn. destruct (H2 n Hn) as [K HK]. exists K. intros k Hk.
    rewrite <- (C47_returns_partial _ _ (from_source_ok D P HP)) by auto. rewrite (HK k Hk). reflexivity.
Qed.
Print Assumptions C47_compiled_partial.
(** No return gets out of a compiled program. *)
Theorem C47_compiled_no_stray : forall D P, compiled_prog D P -> forall n c args st, no_blocks st ->
  forall h v s, call P n c args (Vm st []) <> Abrupt (XRet h v) s.
Proof.
  intros D P HP n c args st Hst h v s E. pose proof (compiled_calls D P HP c args (Vm st [])) as [_ H].
  destruct (H n) as [K HK]; [rewrite E; discriminate|].
  apply (C47_no_stray _ _ (from_source_ok D P HP) K c args st Hst h v s). rewrite (HK K) by auto. exact E.
Qed.
Print Assumptions C47_compiled_no_stray.

(** * Examples *)
(** The program of C47_nonvacuous, compiled. *)
Definition ex_cenv : cenv := {| ce_fields := []; ce_known := fun _ => false |}.
Definition ex_defs (i : nat) : option mdef := option_map (fun m => Mdef m ex_cenv false) (ex_methods i).
Definition ex_compiled : prog :=
  Prog (p_find ex_prog) (p_super ex_prog) (p_dnu ex_prog) (p_prim ex_prog) (bc_body (code_at ex_defs))
       (fun mid => match ex_defs mid with Some d => catches d | None => false end) (p_inc ex_prog) (p_dec ex_prog).
Lemma ex_compiled_ok : compiled_prog ex_defs ex_compiled.
Proof.
  split; [reflexivity|]. split; [apply ex_prog_ok|]. intros mid d E. unfold ex_defs in E.
  destruct (ex_methods mid) as [m|] eqn:Em; [|discriminate]. cbn [option_map] in E. inversion E; subst d; clear E. cbn [md_src md_env].
  split; [apply (proj2 (proj2 ex_prog_ok) mid m Em)|].
  assert (F : forall (Q : nat -> msrc -> Prop), Q 0 m_rec -> Q 1 m_make -> Q 2 m_use -> Q 3 m_self -> Q 4 m_lost -> Q mid m).
  { intros Q. unfold ex_methods in Em. do 5 (destruct mid as [|mid]; [cbn [nth_error] in Em; inversion Em; subst; auto|]). destruct mid; discriminate. }
  split; [revert mid m Em F; intros mid m _ F; apply (F (fun _ m => in_layer t_self (ms_locals m) = None)); reflexivity|].
  split; [revert mid m Em F; intros mid m _ F; apply (F (fun _ m => ce_fields ex_cenv = ms_fields m)); reflexivity|].
  split.
  - revert mid m Em F. intros mid m _ F.
    apply (F (fun _ m => exists x, code_of (Mdef m ex_cenv false) = Ok x));
      match goal with |- exists x, ?c = Ok x => let v := eval vm_compute in c in match v with Ok ?y => exists y; vm_compute; reflexivity end end.
  - cbn [ex_compiled p_catch]. unfold ex_defs. rewrite Em. reflexivity.
Qed.
Example C43_program_nonvacuous :
  compiled_prog ex_defs ex_compiled /\ no_blocks ex_store /\
  seen (call ex_compiled 60 (CMeth 0) [VObj 0; VNil] (Vm ex_store [])) =
    Done (VInt 1) (Store [OInst 0 []; OBlk 0 2 0] [] []) /\
  seen (call ex_compiled 60 (CMeth 2) [VObj 0] (Vm ex_store [])) =
    Done (VObj 0) (Store [OInst 0 []; OBlk 1 1 1] [] []).
Proof.
  split; [apply ex_compiled_ok|]. split; [intros [|[|a]] m l o; cbn; discriminate|]. split; vm_compute; reflexivity.
Qed.
Example C47_marked_nonvacuous : exists m, code_of (Mdef m_rec ex_cenv false) = Ok m /\
  returns_from_blocks m_rec = true /\ catches (Mdef m_rec ex_cenv false) = true /\ catches (Mdef m_use ex_cenv false) = false.
Proof.
  match goal with |- context [code_of ?d] => let v := eval vm_compute in (code_of d) in match v with Ok ?y => exists y end end.
  vm_compute. auto.
Qed.
