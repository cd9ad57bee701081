(** C72: how a run of the VM ends. *)
From Coq Require Import ZArith Bool String Ascii List Lia.
From Verif Require Import Base LexModel ParseModel ArgModel ExitModel ExitSpec ExitProofs.
Import ListNotations.
Open Scope Z_scope.
Open Scope list_scope.

(** Every program, on both interpreters, run by Python or translated: status, output and last report are those of
    the execution on a stack of activations. *)
Theorem C72_program tb built env args boot init lines w i cp d a rest :
  uses built env i -> handle_arguments false args = ARun cp d (a :: rest) -> start w ->
  exists ws f n', ends 0 (PCall boot (fun _ => init (a :: rest))) [] ws f n' /\
    status f (snd (process tb built env args boot init lines w)) /\
    shows (fst (process tb built env args boot init lines w)) w (ws ++ last_words (is_translated built) tb f).
Proof. intros U. apply program_ends with (i := i). apply uses_running. exact U. Qed.
Print Assumptions C72_program.

(** There is no other execution on the stack of activations, and no other status. *)
Theorem C72_one_end n p st ws f n' :
  ends n p st ws f n' ->
  (forall ws2 f2 n2, ends n p st ws2 f2 n2 -> ws2 = ws /\ f2 = f /\ n2 = n') /\
  (forall a b, status f a -> status f b -> a = b).
Proof. intros H. split; [exact (ends_det _ _ _ _ _ _ H)|]. intros. eapply status_det; eassumption. Qed.
Print Assumptions C72_one_end.

(** exit: ends the program at once, however deep the activations are and whatever they have left to do. *)
Theorem C72_exit_at_once tb built env args boot init lines w i cp d a rest ws0 v n0 fs ws z after :
  uses built env i -> handle_arguments false args = ARun cp d (a :: rest) -> start w ->
  ends 0 boot [] ws0 (Finished v) n0 ->
  init (a :: rest) = inside fs (writing ws (PExit (VInt z) after)) ->
    status (Exits z) (snd (process tb built env args boot init lines w)) /\
    shows (fst (process tb built env args boot init lines w)) w (ws0 ++ ws).
Proof.
  intros U A S B E.
  destruct (inside_ends fs (writing ws (PExit (VInt z) after)) n0 [] ws (Exits z)) as [n' H].
  { intros n st. exists n. rewrite <- (app_nil_r ws) at 2. apply writing_ends. constructor. }
  pose proof (after_boot _ _ _ _ _ _ _ _ B H) as X. rewrite <- E in X.
  pose proof (program_known tb built env args boot init lines w i cp d a rest _ _ _ (uses_running _ _ _ U) A S X) as [P Q].
  split; [exact P|]. cbn [last_words] in Q. rewrite app_nil_r in Q. exact Q.
Qed.
Print Assumptions C72_exit_at_once.

(** The status is the number given to exit:, for 0 to 255. *)
Theorem C72_exit_status_partial z c : 0 <= z < 256 -> status (Exits z) c -> c = z.
Proof.
  intros R H. inversion H as [|? W|? W| |]; subst.
  - apply Z.mod_small. exact R.
  - exfalso. apply W. unfold word. lia.
Qed.
Print Assumptions C72_exit_status_partial.
(** It is not for other numbers: failure can look like success. *)
Theorem C72_exit_status_refuted :
  exists z, z <> 0 /\ forall tb env boot init lines w,
    uses None env Bc -> start w -> boot = PRet None -> init ["Foo"%string] = PExit (VInt z) (fun v => PRet v) ->
    process tb None env ["Foo"%string] boot init lines w = (w, 0).
Proof.
  exists 256. split; [lia|]. intros tb env boot init lines w U S -> E. inversion U; subst.
  unfold process, interp_type, main_py, main_, interpret. simpl handle_arguments. cbn [String.eqb]. simpl. rewrite E. reflexivity.
Qed.
Print Assumptions C72_exit_status_refuted.

(** A start-up that does not finish (a class of the system missing, a syntax error in it) ends the run. *)
Theorem C72_startup tb built env args boot init lines w i cp d rest ws f n' :
  uses built env i -> handle_arguments false args = ARun cp d rest -> start w ->
  ends 0 boot [] ws f n' -> (forall v, f <> Finished v) ->
    status f (snd (process tb built env args boot init lines w)) /\
    shows (fst (process tb built env args boot init lines w)) w (ws ++ last_words (is_translated built) tb f).
Proof. intros U. apply boot_stops with (i := i). apply uses_running. exact U. Qed.
Print Assumptions C72_startup.

(** The first class of the system that no path has gives status 200 and a message that names it. *)
Theorem C72_missing_class tb built env args init lines w i cp d rest found name paths more k :
  uses built env i -> handle_arguments false args = ARun cp d rest -> start w ->
  Forall (fun c => first_file (snd c) = Some (Named (fst c))) found -> first_file paths = None ->
  let boot := load_system_classes (found ++ (name, paths) :: more) k in
    snd (process tb built env args boot init lines w) = 200 /\
    shows (fst (process tb built env args boot init lines w)) w [(true, not_loaded name)].
Proof.
  intros U A S F N boot.
  assert (H : ends 0 boot [] [(true, not_loaded name)] (Exits 200) 0).
  { unfold boot. clear - F N. induction F as [|[c ps] found Fc F IH]; cbn [app load_system_classes fold_right].
    - apply E_not_found; [exact N|]. apply E_out. apply E_exit.
    - apply E_found; [exact Fc|]. exact IH. }
  pose proof (boot_stops tb built env args boot init lines w i cp d rest _ _ _ (uses_running _ _ _ U) A S H) as X.
  destruct X as [P Q]; [discriminate|]. cbn [last_words] in Q. rewrite app_nil_r in Q. split; [|exact Q].
  apply (C72_exit_status_partial 200); [lia|exact P].
Qed.
Print Assumptions C72_missing_class.

(** A file with a class of another name ends the program with status 1, from wherever it is loaded. *)
Theorem C72_wrong_name tb built env args boot init lines w i cp d a rest ws0 v n0 fs ws name cname paths after :
  uses built env i -> handle_arguments false args = ARun cp d (a :: rest) -> start w ->
  ends 0 boot [] ws0 (Finished v) n0 -> first_file paths = Some (Named cname) -> name <> cname ->
  init (a :: rest) = inside fs (writing ws (PLoad name paths after)) ->
    snd (process tb built env args boot init lines w) = 1 /\
    shows (fst (process tb built env args boot init lines w)) w (ws0 ++ ws ++ [(true, mismatch name cname)]).
Proof.
  intros U A S B F N E.
  destruct (inside_ends fs (writing ws (PLoad name paths after)) n0 [] (ws ++ [(true, mismatch name cname)]) (Exits 1)) as [n' H].
  { intros n st. exists n. apply writing_ends. apply E_other_name; assumption. }
  pose proof (after_boot _ _ _ _ _ _ _ _ B H) as X. rewrite <- E in X.
  pose proof (program_known tb built env args boot init lines w i cp d a rest _ _ _ (uses_running _ _ _ U) A S X) as [P Q].
  split; [apply (C72_exit_status_partial 1); [lia|exact P]|]. cbn [last_words] in Q. rewrite app_nil_r in Q. exact Q.
Qed.
Print Assumptions C72_wrong_name.

(** Status and output do not depend on the interpreter or on who runs it. *)
Theorem C72_everywhere tb built env i built' env' i' args boot init lines w cp d a rest :
  uses built env i -> uses built' env' i' -> handle_arguments false args = ARun cp d (a :: rest) -> start w ->
  snd (process tb built env args boot init lines w) = snd (process tb built' env' args boot init lines w) /\
  stdout (fst (process tb built env args boot init lines w)) = stdout (fst (process tb built' env' args boot init lines w)).
Proof.
  intros U U' A S.
  destruct (C72_program tb built env args boot init lines w i cp d a rest U A S) as (ws & f & n & E & P & Q & _).
  destruct (C72_program tb built' env' args boot init lines w i' cp d a rest U' A S) as (ws' & f' & n' & E' & P' & Q' & _).
  destruct (ends_det _ _ _ _ _ _ E _ _ _ E') as (-> & -> & _).
  split; [eapply status_det; eassumption|]. rewrite Q, Q', !on_app.
  destruct f as [v|z|[t|e]|e msg]; reflexivity.
Qed.
Print Assumptions C72_everywhere.
(** The error output does: translated, the report of a syntax error has no line end. *)
Theorem C72_reports_refuted :
  exists init, forall tb, exists w, start w /\
    stderr (fst (process tb None (Some "AST"%string) ["Foo"%string] (PRet None) init [] w)) <>
    stderr (fst (process tb (Some Ast) None ["Foo"%string] (PRet None) init [] w)).
Proof.
  exists (fun _ => PParse (inl (str "x"))). intros tb. exists (World [] [] None 0 []). split; [split; reflexivity|].
  vm_compute. discriminate.
Qed.
Print Assumptions C72_reports_refuted.

(** Sessions of the shell, AST interpreter: failures are reported and do not count for the status; exit: ends the session. *)
Theorem C72_session_ast tb built env args boot init lines w cp d ws0 v n0 :
  uses built env Ast -> handle_arguments false args = ARun cp d [] -> start w ->
  ends 0 boot [] ws0 (Finished v) n0 ->
  exists ws f, session (is_translated built) true tb n0 lines (Some VNil) ws f /\
    status f (snd (process tb built env args boot init lines w)) /\
    shows (fst (process tb built env args boot init lines w)) w
      (ws0 ++ (false, greeting) :: ws ++ last_words (is_translated built) tb f).
Proof.
  intros U A S B. destruct (session_exists (is_translated built) tb lines n0 (Some VNil)) as (ws & f & H).
  exists ws, f. split; [exact H|].
  eapply shell_session; [exact (uses_running _ _ _ U)|exact A|exact S|left; reflexivity|exact B|exact H].
Qed.
Print Assumptions C72_session_ast.
(** Bytecode interpreter: sessions in which no statement fails (but the last one may exit). *)
Theorem C72_session_bc_partial tb built env i args boot init lines w cp d ws0 v n0 ws f :
  uses built env i -> handle_arguments false args = ARun cp d [] -> start w ->
  ends 0 boot [] ws0 (Finished v) n0 ->
  session (is_translated built) false tb n0 lines (Some VNil) ws f ->
    status f (snd (process tb built env args boot init lines w)) /\
    shows (fst (process tb built env args boot init lines w)) w
      (ws0 ++ (false, greeting) :: ws ++ last_words (is_translated built) tb f).
Proof.
  intros U A S B H.
  eapply shell_session; [exact (uses_running _ _ _ U)|exact A|exact S|right; reflexivity|exact B|exact H].
Qed.
Print Assumptions C72_session_bc_partial.
(** After a failure the bytecode interpreter takes the activations it has left for active: ^ in a block of one of
    them is then an internal error instead of escapedBlock:. *)
Definition failing : list line :=
  [Stmt (fun _ => PHome (fun _ => PRaise AssertionError (str "oops")) (fun v => PRet v));
   Stmt (fun _ => PReturn 0 (Some VNil) (POut false (str "escaped") (PRet (Some VNil))))].
Theorem C72_session_bc_refuted :
  exists lines ws f, session true true (fun _ => []) 0 lines (Some VNil) ws f /\
    forall init w, start w ->
    ~ shows (fst (process (fun _ => []) (Some Bc) None [] (PRet None) init lines w)) w ((false, greeting) :: ws).
Proof.
  exists failing, (caught true (fun _ => []) AssertionError (str "oops") ++ [(false, str "escaped")]), (Finished (Some VNil)). split.
  - apply (L_failed true true (fun _ => []) 0 (Some VNil) _ _ [] AssertionError (str "oops") 1); [reflexivity| |].
    + apply E_home. apply E_raise.
    + apply (L_value true true (fun _ => []) 1 (Some VNil) _ _ [(false, str "escaped")] (Some VNil) 1 [] (Finished (Some VNil))).
      * apply E_escaped; [reflexivity|]. apply E_out. apply E_end.
      * apply L_over.
  - intros init w [N G] [O _]. destruct w as [so se le nx gn]. simpl in N, G. subst.
    cbv [process entry_point main_ interpret handle_arguments arg_loop failing shell_loop run catch handle
         fst snd stdout stderr put fresh is_on_stack next gone Nat.ltb Nat.leb existsb negb andb a_cp a_dump a_rest a_others] in O.
    cbn [stdout next gone fst snd exit_] in O.
    rewrite <- (app_nil_r (so ++ greeting)), <- app_assoc in O. apply app_inv_head in O.
    revert O. vm_compute. discriminate.
Qed.
Print Assumptions C72_session_bc_refuted.

(** A session can be ended by a syntax error whose report fails (C67), with status 1. *)
Theorem C72_unreportable_refuted :
  exists p, forall tb env more init w, uses None env Ast -> start w ->
    snd (process tb None env [] (PRet None) init (Stmt p :: more) w) = 1.
Proof.
  exists (fun _ => PParse (inr TypeError)). intros tb env more init w U S. inversion U; subst. reflexivity.
Qed.
Print Assumptions C72_unreportable_refuted.

(** The options for help, and a wrong use of -cp, print the usage and give status 0; without an interpreter it is 1. *)
Theorem C72_usage tb built env i args boot init lines w :
  uses built env i -> handle_arguments false args = AExit ->
  process tb built env args boot init lines w = (put false usage w, 0).
Proof. intros U A. rewrite (process_finishes _ _ _ _ _ _ _ _ _ (uses_running _ _ _ U)), A. reflexivity. Qed.
Print Assumptions C72_usage.
Theorem C72_no_interpreter tb built env args boot init lines w :
  (forall i, ~ uses built env i) ->
  process tb built env args boot init lines w = (put false no_interp w, 1).
Proof. intros H. destruct (not_usable _ _ H) as [-> E]. unfold process. rewrite E. reflexivity. Qed.
Print Assumptions C72_no_interpreter.

(** In a universe made not to exit (the tests of the project), exit: does not end the program. *)
Theorem C72_embedded_refuted :
  exists p, forall i w, fst (run i true p w) = World (stdout w ++ str "still here") (stderr w) (Some 3) (next w) (gone w).
Proof. exists (PExit (VInt 3) (fun v => POut false (str "still here") (PRet v))). reflexivity. Qed.
Print Assumptions C72_embedded_refuted.

(** A program that writes, calls a method that catches returns, calls a block that exits within it. *)
Definition sample (_ : list string) : prog :=
  POut false (str "one") (PHome (fun m => PCall (POut false (str "two") (PExit (VInt 7) (fun _ => POut false (str "never") (PRet None))))
                                               (fun _ => PReturn m None (PRet None)))
                               (fun _ => POut false (str "nor this") (PRet None))).
Example C72_nonvacuous : let w := World [] [] None 0 [] in
  uses None (Some "BC"%string) Bc /\ handle_arguments false ["Foo.som"%string; "x"%string] = ARun ["."%string] false ["Foo"%string; "x"%string] /\
  start w /\ ends 0 (PRet None) [] [] (Finished None) 0 /\
  process (fun _ => []) None (Some "BC"%string) ["Foo.som"%string; "x"%string] (PRet None) sample [] w =
    (World (str "onetwo") [] None 1 [], 7).
Proof. split; [constructor|]. split; [reflexivity|]. split; [split; reflexivity|]. split; [constructor|]. vm_compute. reflexivity. Qed.
Definition exiting (it : option value) : prog := POut false (str "hi") (PExit (VInt 3) (fun v => PRet v)).
Example C72_nonvacuous_session : let w := World [] [] None 0 [] in
  handle_arguments false [] = ARun ["."%string] false [] /\
  session false false (fun _ => []) 0 [Stmt (fun _ => PRet (Some VTrue)); Newline; Stmt exiting; Quit] (Some VNil)
    [(false, str "hi")] (Exits 3) /\
  snd (process (fun _ => []) None (Some "BC"%string) [] (PRet None) sample
        [Stmt (fun _ => PRaise TypeError []); Garbled ValueError []; Stmt exiting] w) = 3 /\
  snd (process (fun _ => []) None (Some "AST"%string) [] (PRet None) sample
        [Stmt (fun _ => PRaise TypeError []); Stmt (fun _ => PParse (inl []))] w) = 0.
Proof.
  split; [reflexivity|]. split; [|split; vm_compute; reflexivity].
  apply (L_value _ _ _ 0 (Some VNil) _ _ [] (Some VTrue) 0 [(false, str "hi")] (Exits 3)); [apply E_end|].
  apply L_newline. apply (L_exit _ _ _ 0 _ _ _ _ 3 0). apply E_out. apply E_exit.
Qed.
(** A library with Object but without Class *)
Example C72_nonvacuous_missing : let w := World [] [] None 0 [] in
  Forall (fun c => first_file (snd c) = Some (Named (fst c))) [(str "Object", [Absent; Named (str "Object")])] /\
  first_file [Absent; Absent] = None /\
  first_file [Absent; Named (str "Bar")] = Some (Named (str "Bar")) /\
  process (fun _ => []) (Some Ast) None ["Foo"%string]
    (load_system_classes [(str "Object", [Absent; Named (str "Object")]); (str "Class", [Absent; Absent])] (PRet None)) sample [] w =
    (put true (not_loaded (str "Class")) w, 200).
Proof. split; [repeat constructor|]. split; [reflexivity|]. split; [reflexivity|]. vm_compute. reflexivity. Qed.
