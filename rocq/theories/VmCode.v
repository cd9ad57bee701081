(** Compiled programs: which methods catch returns, and what bodies do as bytecodes. *)
From Coq Require Import ZArith Bool String Ascii List Lia.
From Verif Require Import Base LexModel ParseModel BcModel BcInterp BcSpec BcTab VmModel VmSpec.
Import ListNotations.
Open Scope nat_scope.
Open Scope list_scope.

(** A method to compile: its source, the classes' fields and known globals it is compiled
    with, and whether its last statement ends with a period. *)
Record mdef := Mdef { md_src : msrc; md_env : cenv; md_period : bool }.
(** Its bytecodes.  (bc/method_generation_context.py 133-180)  Simplification: methods that
    are recognised as trivial run their bytecodes too, see C48. *)
Definition code_of (d : mdef) : res meth :=
  let m := md_src d in
  compile_method (md_env d) (ms_params m) (ms_locals m) (ms_body m) (ms_ret m) (md_period d).
(** Is it a BcMethodNLR?  needs_to_catch_non_local_returns of its generation context (155-158,
    compiler/method_generation_context.py 131-146). *)
Definition catches (d : mdef) : bool :=
  let m := md_src d in
  match gen_method (md_env d) true (ms_params m) (ms_locals m) (ms_body m) (ms_ret m) (md_period d) with
  | Ok (_, [sc]) => sc_catch sc
  | _ => false
  end.
(** What methods and the blocks in them do when their bytecodes are run. *)
Definition bc_body (C : nat -> option meth) (mid : nat) (blk : option nat) (μ : machine vm stop)
  (n : nat) (s : vm) : vout value :=
  match C mid, blk with
  | Some m, None => run_method μ [] m n s
  | Some m, Some l => match find (fun p => me_label (snd p) =? l) (inside m []) with
                      | Some (outer, b) => run_method μ outer b n s
                      | None => Stuck
                      end
  | None, _ => Stuck
  end.
Definition code_at (D : nat -> option mdef) (mid : nat) : option meth :=
  match D mid with
  | Some d => match code_of d with Ok m => Some m | Err _ => None end
  | None => None
  end.
(** A program of compiled methods, of sources as in C43. *)
Definition compiled_prog (D : nat -> option mdef) (P : prog) : Prop :=
  p_body P = bc_body (code_at D) /\ honest_prog P /\
  forall mid d, D mid = Some d ->
    ok_method (md_src d) /\ in_layer t_self (ms_locals (md_src d)) = None /\
    ce_fields (md_env d) = ms_fields (md_src d) /\
    (exists m, code_of d = Ok m) /\ p_catch P mid = catches d.
(** The same program, its methods evaluated from their sources. *)
Definition sources (D : nat -> option mdef) (mid : nat) : option msrc := option_map md_src (D mid).
Definition from_source (D : nat -> option mdef) (P : prog) : prog :=
  Prog (p_find P) (p_super P) (p_dnu P) (p_prim P) (source_body (sources D)) (p_catch P) (p_inc P) (p_dec P).
